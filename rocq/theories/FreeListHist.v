(** Histories of free_list calls against a finite map. *)
From Verif Require Import Outcome Chain FreeListModel FreeListProofs.

(** Mutating calls: insert a value with its own [next] member, remove an index,
    assign through [operator[]], clear. *)
Inductive flop (T : Type) :=
| FInsert (v : T) (nx : option nat)
| FRemove (i : nat)
| FAssign (i : nat) (v : T) (nx : option nat)
| FClear.
Arguments FInsert {_} _ _.
Arguments FRemove {_} _.
Arguments FAssign {_} _ _ _.
Arguments FClear {_}.

Section hist.
Context {T : Type} (dflt : T).
Notation flmap := (gmap nat (T * option nat)).

(** The specification: a finite map; an insertion returns an unused key. *)
Definition fl_legal (m : flmap) (o : flop T) : Prop :=
  match o with
  | FInsert _ _ => True
  | FRemove i => is_Some (m !! i)
  | FAssign i _ _ => is_Some (m !! i)
  | FClear => True
  end.
Definition fl_result_ok (m : flmap) (o : flop T) (r : option nat) : Prop :=
  match o with
  | FInsert _ _ => ∃ i, r = Some i ∧ m !! i = None
  | _ => r = None
  end.
Definition fl_next (m : flmap) (o : flop T) (r : option nat) : flmap :=
  match o, r with
  | FInsert v nx, Some i => <[i := (v, nx)]> m
  | FInsert _ _, None => m
  | FRemove i, _ => delete i m
  | FAssign i v nx, _ => <[i := (v, nx)]> m
  | FClear, _ => ∅
  end.

Definition fl_step (l : free_list T) (o : flop T) : res (free_list T * option nat) :=
  match o with
  | FInsert v nx => '(l, i) ← fl_insert dflt l v nx; Ok (l, Some i)
  | FRemove i => l ← fl_remove dflt l i; Ok (l, None)
  | FAssign i v nx => l ← fl_set l (Some i) (v, nx); Ok (l, None)
  | FClear => Ok (fl_clear l, None)
  end.

Inductive fl_hist : free_list T → flmap → Prop :=
| flh_init : fl_hist fl_empty ∅
| flh_step l m o l' r :
    fl_hist l m → fl_legal m o → fl_step l o = Ok (l', r) → fl_hist l' (fl_next m o r).

Definition fl_rep (l : free_list T) (m : flmap) : Prop :=
  fl_ok l (dom m) ∧ ∀ i e, m !! i = Some e → fl_elem l !! i = Some e.

Lemma fl_step_spec l m o :
  fl_rep l m → fl_legal m o →
  ∃ l' r, fl_step l o = Ok (l', r) ∧ fl_result_ok m o r ∧ fl_rep l' (fl_next m o r).
Proof.
  intros [Hok Hm] Hl. destruct o as [v nx|i|i v nx|]; cbn [fl_legal fl_step fl_result_ok fl_next] in *.
  - destruct (fl_insert_spec dflt l _ v nx Hok) as (l' & i & -> & Hi & Hok' & He & Hoth & Hlen & _).
    simpl. eexists _, _. split; [done|]. simpl.
    assert (Hmi : m !! i = None) by (by apply not_elem_of_dom). split; [by eauto|]. split.
    + by rewrite dom_insert_L.
    + intros j e. destruct (decide (j = i)) as [->|Hne].
      * rewrite lookup_insert. intros. by simplify_eq.
      * rewrite lookup_insert_ne by done. intros Hj. rewrite Hoth; [auto|done|].
        apply Hm in Hj. by eapply lookup_lt_Some.
  - apply elem_of_dom in Hl as Hi.
    destruct (fl_remove_spec dflt l _ i Hok Hi) as (l' & -> & Hok' & Hoth & _ & _).
    simpl. eexists _, _. split; [done|]. split; [done|]. split.
    + by rewrite dom_delete_L.
    + intros j e [Hne Hj]%lookup_delete_Some. rewrite Hoth by done. auto.
  - apply elem_of_dom in Hl as Hi.
    destruct (fl_set_spec dflt l _ i (v, nx) Hok Hi) as (l' & -> & Hok' & He & _).
    simpl. eexists _, _. split; [done|]. split; [done|].
    assert (Hlt : i < length (fl_elem l)) by by apply (flo_range _ _ Hok). split.
    + rewrite dom_insert_lookup_L by done. done.
    + intros j e. rewrite He. destruct (decide (j = i)) as [->|Hne].
      * rewrite lookup_insert, list_lookup_insert by done. intros. by simplify_eq.
      * rewrite lookup_insert_ne, list_lookup_insert_ne by done. auto.
  - eexists _, _. split; [done|]. split; [done|]. split.
    + rewrite dom_empty_L. apply fl_clear_ok.
    + intros j e Hj. by rewrite lookup_empty in Hj.
Qed.

Lemma fl_hist_rep l m : fl_hist l m → fl_rep l m.
Proof.
  induction 1 as [|l m o l' r Hh IH Hl Hs].
  - split; [rewrite dom_empty_L; apply fl_empty_ok|]. intros i e Hi. by rewrite lookup_empty in Hi.
  - destruct (fl_step_spec l m o IH Hl) as (l'' & r' & Hs' & _ & Hr). rewrite Hs in Hs'. by simplify_eq.
Qed.

Lemma fl_hist_refines l m :
  fl_hist l m →
  fl_count l = Z.of_nat (size m) ∧
  (∀ i e, m !! i = Some e → fl_get l (Some i) = Ok e) ∧
  (∀ o, fl_legal m o → ∃ l' r, fl_step l o = Ok (l', r) ∧ fl_result_ok m o r ∧
     fl_hist l' (fl_next m o r)).
Proof.
  intros Hh. pose proof (fl_hist_rep l m Hh) as Hr. split_and!.
  - unfold fl_count. rewrite (flo_size _ _ (proj1 Hr)). by rewrite size_dom.
  - intros i e Hi. simpl. by rewrite (proj2 Hr _ _ Hi).
  - intros o Hl. destruct (fl_step_spec l m o Hr Hl) as (l' & r & Hs & Hres & _).
    exists l', r. split_and!; [done|done|]. by econstructor.
Qed.
End hist.

(** Singly linked lists threaded through an array by index (specification of
    "following the next members from a head gives this list of indices"). *)
From Verif Require Import Outcome.

(** [nx i] is the [next] member of slot [i], [None] when there is no slot [i]. *)
Fixpoint chain (nx : nat → option (option nat)) (h : option nat) (l : list nat) : Prop :=
  match l with
  | [] => h = None
  | x :: l => h = Some x ∧ ∃ n, nx x = Some n ∧ chain nx n l
  end.

Lemma chain_ext nx nx' h l :
  (∀ i, i ∈ l → nx i = nx' i) → chain nx h l → chain nx' h l.
Proof.
  revert h; induction l as [|x l IH]; intros h Hext; simpl; [done|].
  intros (-> & n & Hn & Hc). split; [done|]. exists n. split.
  - rewrite <- Hext; [done|set_solver].
  - apply IH; [|done]. set_solver.
Qed.

Lemma chain_det nx h l l' : chain nx h l → chain nx h l' → l = l'.
Proof.
  revert h l'; induction l as [|x l IH]; intros h [|y l']; simpl; try done.
  - intros -> (? & _). done.
  - intros (-> & _) ?. done.
  - intros (-> & n & Hn & Hc) (Heq & n' & Hn' & Hc').
    simplify_eq. f_equal. eauto.
Qed.

Lemma chain_lookup nx h l i : chain nx h l → i ∈ l → is_Some (nx i).
Proof.
  revert h; induction l as [|x l IH]; intros h; simpl.
  - intros _ Hi. set_solver.
  - intros (-> & n & Hn & Hc) Hi. apply elem_of_cons in Hi as [->|Hi]; eauto.
Qed.

Lemma chain_head nx h l : chain nx h l → h = head l.
Proof. destruct l; simpl; [done|]. by intros (-> & _). Qed.

(** Tail of a chain as a segment: following [l1] from [h] leads to [m]. *)
Fixpoint seg (nx : nat → option (option nat)) (h : option nat) (l : list nat) (m : option nat) : Prop :=
  match l with
  | [] => h = m
  | x :: l => h = Some x ∧ ∃ n, nx x = Some n ∧ seg nx n l m
  end.

Lemma chain_seg nx h l : chain nx h l ↔ seg nx h l None.
Proof.
  revert h; induction l as [|x l IH]; intros h; simpl; [done|].
  setoid_rewrite IH. done.
Qed.

Lemma seg_app nx h l1 l2 m :
  seg nx h (l1 ++ l2) m ↔ ∃ k, seg nx h l1 k ∧ seg nx k l2 m.
Proof.
  revert h; induction l1 as [|x l1 IH]; intros h; simpl.
  - split; [eauto|]. by intros (k & -> & H).
  - setoid_rewrite IH. naive_solver.
Qed.

Lemma seg_ext nx nx' h l m :
  (∀ i, i ∈ l → nx i = nx' i) → seg nx h l m → seg nx' h l m.
Proof.
  revert h; induction l as [|x l IH]; intros h Hext; simpl; [done|].
  intros (-> & n & Hn & Hc). split; [done|]. exists n. split.
  - rewrite <- Hext; [done|set_solver].
  - apply IH; [|done]. set_solver.
Qed.

(** Splicing: unlink [x] from [l1 ++ x :: l2] by redirecting its predecessor. *)
Lemma chain_split nx h l1 x l2 :
  chain nx h (l1 ++ x :: l2) ↔
  seg nx h l1 (Some x) ∧ ∃ n, nx x = Some n ∧ chain nx n l2.
Proof.
  rewrite chain_seg, seg_app. simpl. setoid_rewrite chain_seg. naive_solver.
Qed.

Lemma chain_push nx nx' h l x :
  chain nx h l → (∀ i, i ∈ l → nx i = nx' i) → nx' x = Some h → chain nx' (Some x) (x :: l).
Proof. intros Hc He Hx. simpl. split; [done|]. exists h. split; [done|]. by eapply chain_ext. Qed.

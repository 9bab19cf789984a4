(** Property theorems for static_tree (C10). *)
From Verif Require Import Outcome TreeModel TreeProofs BoxModel BoxProofs StaticModel StaticProofs.
From Coq Require Import Sorted QArith.
Local Close Scope Q_scope.

(** Binary tree stored from node [i]: all ids, leaves in order; every internal
    box contains the boxes of the children. *)
Inductive stree {box} (sub : box → box → Prop) (ns : list (tnode box)) : nat → list nat → list nat → Prop :=
| str_leaf i n : ns !! i = Some n → tn_c1 n = None → stree sub ns i [i] [i]
| str_node i n l r nl nr il ir ll lr :
    ns !! i = Some n → tn_c1 n = Some l → tn_c2 n = Some r →
    stree sub ns l il ll → stree sub ns r ir lr →
    ns !! l = Some nl → ns !! r = Some nr →
    sub (tn_box nl) (tn_box n) → sub (tn_box nr) (tn_box n) →
    stree sub ns i (i :: il ++ ir) (ll ++ lr).

Lemma srep_stree {box} (sub : box → box → Prop) ns t :
  srep ns t → sfit sub ns t → stree sub ns (bid t) (ids t) (leaves t).
Proof.
  induction t as [i|i l IHl r IHr]; simpl.
  - intros (n & ? & ?) _. by econstructor.
  - intros (n & Hn & ? & ? & ? & ?) (? & ? & n' & nl & nr & Hn' & ? & ? & ? & ?).
    assert (n' = n) as -> by congruence. eapply str_node; eauto.
Qed.

(** An insertion sort, to show that [sort_ok] can be met. *)
Fixpoint sins (lt : nat → nat → bool) (x : nat) (l : list nat) : list nat :=
  match l with
  | [] => [x]
  | y :: l => if lt y x then y :: sins lt x l else x :: y :: l
  end.
Definition isort (lt : nat → nat → bool) (l : list nat) : list nat := foldr (sins lt) [] l.
Lemma isort_ok : sort_ok isort.
Proof.
  intros lt Hirr Htr Heq l.
  assert (Hpi : ∀ x l, sins lt x l ≡ₚ x :: l).
  { intros x k. induction k as [|y k IH]; simpl; [done|]. destruct (lt y x); [|done].
    rewrite IH. constructor. }
  assert (Hnt : ∀ a b c, lt b a = false → lt c b = false → lt c a = false).
  { intros a b c H1 H2. destruct (lt c a) eqn:E; [|done].
    destruct (lt a b) eqn:E1.
    - rewrite (Htr c a b E E1) in H2. done.
    - destruct (lt b c) eqn:E2.
      + rewrite (Htr b c a E2 E) in H1. done.
      + destruct (Heq a b c) as [_ E3]; try done. congruence. }
  assert (Hsi : ∀ x l, StronglySorted (λ a b, lt b a = false) l →
     StronglySorted (λ a b, lt b a = false) (sins lt x l)).
  { intros x k. induction k as [|y k IH]; simpl; intros Hs; [repeat constructor|].
    apply StronglySorted_inv in Hs as [Hs Hf]. destruct (lt y x) eqn:E.
    - constructor; [by apply IH|]. rewrite Hpi. constructor; [|done].
      destruct (lt x y) eqn:E2; [|done]. rewrite <- (Hirr x). symmetry. by eapply Htr.
    - constructor; [by constructor|]. constructor; [done|].
      rewrite Forall_forall in Hf |- *. intros z Hz. eapply Hnt; [exact E|]. by apply Hf. }
  induction l as [|x l [IH1 IH2]]; simpl; [split; [done|constructor]|].
  split; [|by apply Hsi]. rewrite Hpi. by rewrite IH1.
Qed.

Lemma elem_of_concat (e : nat) (ll : list (list nat)) : e ∈ concat ll ↔ ∃ l, e ∈ l ∧ l ∈ ll.
Proof.
  induction ll as [|l ll IH]; simpl; [set_solver|]. rewrite elem_of_app, IH. set_solver.
Qed.

Section c10.
Context {R : Type} (leb ltb : R → R → bool) (add sub mul : R → R → R) (half : R).
Context (srt : (nat → nat → bool) → list nat → list nat) (box0 : aabb R).
Context (O : total_order leb ltb) (Hsrt : sort_ok srt).
Context (mid_mono : ∀ x a b, leb a b = true → leb (mul (add x a) half) (mul (add x b) half) = true).
Notation build := (build ltb add sub mul half srt box0).

(** For every non-empty list of boxes and every leaf capacity of at least one,
    build returns; it reports each element index exactly once, in non-empty
    groups within the capacity; the reported nodes are exactly the leaves of a
    binary tree rooted at node 0 that uses every node once and whose boxes
    enclose those below; a leaf's box is the enclosing box of its elements. *)
Theorem C10_build_loses_nothing bs max :
  bs ≠ [] → max ≥ 1 →
  ∃ ns rs, build bs max = Ok (ns, rs) ∧
    concat (rs.*2) ≡ₚ seq 0 (length bs) ∧
    (∀ i es, (i, es) ∈ rs → es ≠ [] ∧ length es ≤ max) ∧
    (∃ ids, stree (box_in leb) ns 0 ids rs.*1 ∧ ids ≡ₚ seq 0 (length ns)) ∧
    (∀ i es, (i, es) ∈ rs → ∃ n, ns !! i = Some n ∧
      (∀ e b, e ∈ es → bs !! e = Some b → box_in leb b (tn_box n)) ∧
      (∀ c, (∀ e b, e ∈ es → bs !! e = Some b → box_in leb b c) → box_in leb (tn_box n) c)).
Proof using O Hsrt mid_mono.
  intros Hbs Hmax. destruct (build_spec leb ltb add sub mul half srt box0 O Hsrt mid_mono bs max Hbs Hmax)
    as (ns & rs & t & Hb & Hid & Hr & Hf & Hids & Hlv & Hel & Hsz & Hbx).
  exists ns, rs. split_and!; try done.
  - exists (ids t). split; [|done]. rewrite <- Hlv, <- Hid. by apply srep_stree.
  - intros i es Hi. destruct (Hbx i es Hi) as (n & Hn & e0 & es' & -> & Hbox). exists n. split; [done|].
    rewrite Hbox.
    assert (Hlt : ∀ e, e ∈ e0 :: es' → e < length bs).
    { intros e He. assert (e ∈ concat rs.*2) as Hc.
      { apply elem_of_concat. exists (e0 :: es'). split; [done|]. apply elem_of_list_fmap. by exists (i, e0 :: es'). }
      rewrite Hel in Hc. apply elem_of_seq in Hc. lia. }
    split.
    + intros e b He Hbe. apply (fold_box_in _ _ O). apply elem_of_cons in He as [->|He].
      * unfold ebox. rewrite Hbe. by left.
      * right. apply elem_of_list_fmap. exists e. unfold ebox. by rewrite Hbe.
    + intros c Hc. apply fold_box_least. intros b Hin.
      assert (∃ e, e ∈ e0 :: es' ∧ b = ebox box0 bs e) as (e & He & ->).
      { apply elem_of_cons in Hin as [->|Hin]; [exists e0; split; [by left|done]|].
        apply elem_of_list_fmap in Hin as (e & -> & He). exists e. split; [by right|done]. }
      destruct (lookup_lt_is_Some_2 bs e (Hlt e He)) as [be Hbe].
      apply (Hc e); [done|]. unfold ebox. by rewrite Hbe.
Qed.

(** Queries visit exactly the leaves whose box intersects, each once. *)
Theorem C10_query_exact bs max ns rs q :
  bs ≠ [] → max ≥ 1 → build bs max = Ok (ns, rs) →
  ∃ l, squery ns (λ b, bx_intersect leb b q) = Ok l ∧ NoDup l ∧
    (∀ i, i ∈ l ↔ i ∈ rs.*1 ∧ ∃ n, ns !! i = Some n ∧ bx_intersect leb (tn_box n) q = true) ∧
    (** no element that intersects the query box is missed *)
    (∀ e b, bs !! e = Some b → bx_intersect leb b q = true →
       ∃ i es, (i, es) ∈ rs ∧ e ∈ es ∧ i ∈ l) ∧
    (** with one element per leaf the visited elements are exactly those *)
    (∀ i e b, (i, [e]) ∈ rs → bs !! e = Some b → (i ∈ l ↔ bx_intersect leb b q = true)).
Proof using O Hsrt mid_mono.
  intros Hbs Hmax Hb. destruct (build_spec leb ltb add sub mul half srt box0 O Hsrt mid_mono bs max Hbs Hmax)
    as (ns' & rs' & t & Hb' & Hid & Hr & Hf & Hids & Hlv & Hel & Hsz & Hbx).
  rewrite Hb in Hb'. simplify_eq.
  set (test := λ b, bx_intersect leb b q).
  assert (Hnd : NoDup (ids t)) by (rewrite Hids; apply NoDup_seq).
  assert (Hex : ∀ i, i ∈ shits ns' test t ↔ i ∈ rs'.*1 ∧ ∃ n, ns' !! i = Some n ∧ test (tn_box n) = true).
  { intros i. rewrite <- Hlv. split.
    - intros Hi. split; [by eapply shits_leaves|by eapply shits_test].
    - intros (Hi & n & Hn & Ht). eapply (shits_complete (box_in leb)); try done.
      intros a b. by apply (intersect_mono _ _ O). }
  exists (shits ns' test t). split_and!.
  - unfold squery. rewrite <- Hid. change [Some (bid t)] with ((Some ∘ bid) <$> [t]). rewrite straverse.
    + simpl. by rewrite app_nil_r.
    + by intros u ->%elem_of_list_singleton.
    + simpl. rewrite Hids, seq_length. lia.
  - by apply shits_nodup.
  - done.
  - intros e b Hbe Ht. assert (e ∈ concat rs'.*2) as Hc.
    { rewrite Hel. apply elem_of_seq. apply lookup_lt_Some in Hbe. lia. }
    apply elem_of_concat in Hc as (es & Hees & Hes). apply elem_of_list_fmap in Hes as ([i es'] & -> & Hi).
    exists i, es'. split_and!; try done. apply Hex. split; [apply elem_of_list_fmap; by exists (i, es')|].
    destruct (Hbx i es' Hi) as (n & Hn & e0 & es0 & -> & Hbox). exists n. split; [done|]. unfold test. rewrite Hbox.
    eapply (intersect_mono _ _ O); [|exact Ht]. apply (fold_box_in _ _ O).
    simpl in Hees. apply elem_of_cons in Hees as [->|Hees].
    + unfold ebox. rewrite Hbe. by left.
    + right. apply elem_of_list_fmap. exists e. unfold ebox. by rewrite Hbe.
  - intros i e b Hi Hbe. rewrite Hex. destruct (Hbx i _ Hi) as (n & Hn & e0 & es0 & [= <- <-] & Hbox).
    simpl in Hbox. unfold ebox in Hbox. rewrite Hbe in Hbox. simpl in Hbox. split.
    + intros (_ & n' & Hn' & Ht). simplify_eq. done.
    + intros Ht. split; [apply elem_of_list_fmap; by exists (i, [e])|]. exists n. split; [done|]. unfold test. by rewrite Hbox.
Qed.

(** Querying a tree that was never built reads node 0 of an empty vector. *)
Theorem C10_query_unbuilt_refuted (test : aabb R → bool) : squery [] test = UB.
Proof using Type. done. Qed.
End c10.

(** ** Concrete case over Z (half-way points rounded down). *)
Definition zmk (a b : Z) : aabb Z := Box (V3 a 0 0)%Z (V3 b 1 1)%Z.
Definition zbuild := build Z.ltb Z.add Z.sub (λ a _, a / 2)%Z 0%Z isort (zmk 0 0).
Example C10_case_hyps :
  total_order Z.leb Z.ltb ∧ sort_ok isort ∧
  (∀ x a b, Z.leb a b = true → Z.leb ((x + a) / 2) ((x + b) / 2) = true).
Proof.
  split_and!; [apply Z_total_order|apply isort_ok|]. intros x a b. rewrite !Z.leb_le. intros H.
  apply Z.div_le_mono; lia.
Qed.
Example C10_case_hyps_Q :
  ∀ x a b, Qle_bool a b = true → Qle_bool ((x + a) * (1#2)) ((x + b) * (1#2)) = true.
Proof. intros x a b. rewrite !Qle_bool_iff. intros. Lqa.lra. Qed.
Example C10_case :
  ∃ ns rs, zbuild [zmk 10 12; zmk 0 1; zmk 0 20; zmk 3 4; zmk 11 13] 2 = Ok (ns, rs) ∧
    rs = [(3, [1]); (4, [3; 2]); (2, [0; 4])] ∧
    squery ns (λ b, bx_intersect Z.leb b (zmk 4 5)) = Ok [4].
Proof. eexists _, _. split_and!; [vm_compute; reflexivity|reflexivity|vm_compute; reflexivity]. Qed.

(** "Every element box set is accepted" fails for a leaf capacity of zero (the
    recursion dereferences the begin of an empty range) and for no boxes. *)
Theorem C10_capacity_zero_refuted : ∃ bs, bs ≠ [] ∧ zbuild bs 0 = UB.
Proof. exists [zmk 10 12]. split; [done|]. vm_compute. reflexivity. Qed.
Theorem C10_no_boxes_refuted : ∀ max, zbuild [] max = AssertFail.
Proof. done. Qed.

Print Assumptions C10_build_loses_nothing.
Print Assumptions C10_query_exact.
Print Assumptions C10_query_unbuilt_refuted.
Print Assumptions C10_capacity_zero_refuted.
Print Assumptions C10_no_boxes_refuted.

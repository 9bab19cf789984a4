(** Consequences of the laws of [exact] numbers. *)
From Coq Require Import Field_theory Field.
From Verif Require Import Outcome RowModel JointModel RowSpec.

Section field.
Context (N : num) (ex : exact N).
Notation T := (nt N).
Add Field nfield : (ex_field N ex).

Lemma lt_irr (x : N) : (x <? x) = false.
Proof. apply (ex_irr N ex). Qed.
Lemma trichotomy (x y : N) : (x <? y) = true ∨ x = y ∨ (y <? x) = true.
Proof.
  destruct (x <? y) eqn:E1; [by left|]. destruct (y <? x) eqn:E2; [by right; right|].
  right. left. by apply (ex_total N ex).
Qed.
Lemma lt_le (x y : N) : (x <? y) = true → le x y.
Proof.
  intros H. unfold le. destruct (y <? x) eqn:E; [|done].
  pose proof (ex_trans N ex _ _ _ H E) as H'. by rewrite lt_irr in H'.
Qed.
Lemma le_cases (x y : N) : le x y → (x <? y) = true ∨ x = y.
Proof. unfold le. intros H. destruct (trichotomy x y) as [?|[?|E]]; [by left|by right|congruence]. Qed.
Lemma le_refl (x : N) : le x x.
Proof. apply lt_irr. Qed.
Lemma le_trans (x y z : N) : le x y → le y z → le x z.
Proof.
  intros [H1| ->]%le_cases [H2| ->]%le_cases; try (by apply lt_le); [|apply le_refl].
  apply lt_le. by eapply (ex_trans N ex).
Qed.
Lemma le_add (x y z : N) : le x y → le (x ⊕ z) (y ⊕ z).
Proof.
  intros [H| ->]%le_cases; [|apply le_refl]. apply lt_le. by apply (ex_add N ex).
Qed.
Lemma lt_add_iff (x y z : N) : (x ⊕ z <? y ⊕ z) = (x <? y).
Proof.
  destruct (trichotomy x y) as [H|[->|H]].
  - rewrite H. by apply (ex_add N ex).
  - by rewrite !lt_irr.
  - pose proof (lt_le _ _ H) as H1. unfold le in H1. rewrite H1.
    pose proof (lt_le _ _ (ex_add N ex _ _ z H)) as H2. exact H2.
Qed.
Lemma lt_sub (x y : N) : (x <? y) = (n0 <? y ⊖ x).
Proof.
  rewrite <- (lt_add_iff x y (nneg x)).
  replace (x ⊕ nneg x) with (n0 (n:=N)) by ring. by replace (y ⊕ nneg x) with (y ⊖ x) by ring.
Qed.
Lemma le_sub (x y : N) : le x y ↔ le n0 (y ⊖ x).
Proof.
  unfold le. rewrite <- (lt_add_iff y x (nneg x)).
  replace (x ⊕ nneg x) with (n0 (n:=N)) by ring. by replace (y ⊕ nneg x) with (y ⊖ x) by ring.
Qed.
Lemma lt_neg (x : N) : (x <? n0) = true → (n0 <? nneg x) = true.
Proof. intros H. rewrite lt_sub in H. by replace (n0 ⊖ x) with (nneg x) in H by ring. Qed.
Lemma le_neg (x : N) : le n0 x → le (nneg x) n0.
Proof. intros H. apply le_sub. by replace (n0 ⊖ nneg x) with x by ring. Qed.
Lemma mul_nonneg (x y : N) : le n0 x → le n0 y → le n0 (x ⊙ y).
Proof.
  intros [H1|H1]%le_cases [H2|H2]%le_cases; try (subst; apply lt_le; by apply (ex_mul N ex));
    subst.
  - replace (x ⊙ n0) with (n0 (n:=N)) by ring. apply le_refl.
  - replace (n0 ⊙ y) with (n0 (n:=N)) by ring. apply le_refl.
  - replace (n0 ⊙ n0) with (n0 (n:=N)) by ring. apply le_refl.
Qed.
Lemma sq_nonneg (x : N) : le n0 (x ⊙ x).
Proof.
  destruct (trichotomy n0 x) as [H|[<-|H]].
  - apply mul_nonneg; by apply lt_le.
  - apply mul_nonneg; apply le_refl.
  - replace (x ⊙ x) with (nneg x ⊙ nneg x) by ring. apply mul_nonneg; apply lt_le; by apply lt_neg.
Qed.
Lemma add_nonneg (x y : N) : le n0 x → le n0 y → le n0 (x ⊕ y).
Proof.
  intros H1 H2. apply (le_trans _ y); [done|].
  replace y with (n0 ⊕ y) at 1 by ring. by apply le_add.
Qed.
Lemma lt_ne (x y : N) : (x <? y) = true → x ≠ y.
Proof. intros H ->. by rewrite lt_irr in H. Qed.
Lemma lt_le_trans (x y z : N) : (x <? y) = true → le y z → (x <? z) = true.
Proof. intros H [H2| <-]%le_cases; [by eapply (ex_trans N ex)|done]. Qed.
Lemma le_lt_trans (x y z : N) : le x y → (y <? z) = true → (x <? z) = true.
Proof. intros [H2| <-]%le_cases H; [by eapply (ex_trans N ex)|done]. Qed.

Lemma zero_circle : n0 ⊙ n0 ⊕ n0 ⊙ n0 = n0 (n:=N).
Proof. ring. Qed.

(** Scaling a pair onto a circle of radius |m|. *)
Lemma rescale (i0 i1 len m : N) :
  len ≠ n0 → len ⊙ len = i0 ⊙ i0 ⊕ i1 ⊙ i1 →
  (i0 ⊘ len ⊙ m) ⊙ (i0 ⊘ len ⊙ m) ⊕ (i1 ⊘ len ⊙ m) ⊙ (i1 ⊘ len ⊙ m) = m ⊙ m.
Proof.
  intros Hn Hl.
  transitivity ((i0 ⊙ i0 ⊕ i1 ⊙ i1) ⊘ (len ⊙ len) ⊙ (m ⊙ m)); [by field|].
  rewrite <- Hl. by field.
Qed.
End field.

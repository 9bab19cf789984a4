(** Property theorems: entity_map (C21) and contact_manifold_map (C11). *)
From Verif Require Import Outcome MapModel MapSpec MapProofs.

(** Along every history whose calls meet their preconditions, no call asserts
    or throws and the lookups in both directions, [contains] and [each] are
    those of the set of pairs inserted and not erased. *)
Theorem C21_entity_map_bijection ops s :
  orun espec ∅ ops = Some s →
  ∃ m, rrun estep em_empty ops = Ok m ∧
    (∀ e l, em_at m e = Ok l ↔ (e, l) ∈ s) ∧
    (∀ e l, em_at_local m l = Ok e ↔ (e, l) ∈ s) ∧
    (∀ e l, em_at m e = Ok l ↔ em_at_local m l = Ok e) ∧
    (∀ e, em_contains m e = true ↔ ∃ l, (e, l) ∈ s) ∧
    (∀ l, em_contains_local m l = true ↔ ∃ e, (e, l) ∈ s) ∧
    em_each m ≡ₚ elements s.
Proof.
  intros (m & Hr & HR)%em_main. pose proof HR as [H1 H2]. exists m.
  assert (A1 : ∀ e l, em_at m e = Ok l ↔ (e, l) ∈ s).
  { intros e l. rewrite <- H1. unfold em_at. destruct (em_map m !! e); simpl; split; congruence. }
  assert (A2 : ∀ e l, em_at_local m l = Ok e ↔ (e, l) ∈ s).
  { intros e l. rewrite <- H2. unfold em_at_local. destruct (em_local m !! l); simpl; split; congruence. }
  split_and!; try done.
  - intros. by rewrite A1, A2.
  - intros e. unfold em_contains. rewrite bool_decide_eq_true. split.
    + intros [l E]. exists l. by apply H1. + intros [l E]. exists l. by apply H1.
  - intros l. unfold em_contains_local. rewrite bool_decide_eq_true. split.
    + intros [e E]. exists e. by apply H2. + intros [e E]. exists e. by apply H2.
  - by apply erel_each.
Qed.

(** The preconditions are necessary: inserting a mapped entity asserts and
    erasing an unmapped one throws. *)
Theorem C21_precondition_needed m e l :
  ((∃ l', em_at m e = Ok l') → em_insert m e l = AssertFail) ∧
  ((∃ e', em_at_local m l = Ok e') → em_insert m e l = AssertFail) ∧
  (em_contains m e = false → em_erase m e = UB) ∧
  (em_contains_local m l = false → em_erase_local m l = UB).
Proof.
  split_and!.
  - intros (l' & H). unfold em_at, em_insert in *. destruct (em_map m !! e); done.
  - intros (l' & H). unfold em_at_local, em_insert in *. destruct (em_local m !! l); [|done].
    destruct (bool_decide (em_map m !! e = None)); done.
  - unfold em_contains, em_erase. rewrite bool_decide_eq_false. destruct (em_map m !! e); [|done]. intros []. eauto.
  - unfold em_contains_local, em_erase_local. rewrite bool_decide_eq_false. destruct (em_local m !! l); [|done]. intros []. eauto.
Qed.

Example C21_case :
  ∃ s, orun espec ∅ [EInsert 1 10; EInsert 2 20; EInsert 3 30; EErase 1; EInsert 4 10;
                     EEraseLocal 20; EEraseIf (λ e _, bool_decide (e = 3)); ESwap] = Some s ∧ s = {[(10, 4)]}.
Proof. eexists. split; [vm_compute; reflexivity|]. apply set_eq. set_solver. Qed.

(** Along every history of creations (for pairs without a manifold),
    destructions and swaps, nothing asserts; a pair is reported present exactly
    when a live manifold joins it, in whichever order the pair is given, and
    [get] returns that manifold. *)
Theorem C11_manifold_lookup ops s :
  orun mspec ∅ ops = Some s →
  ∃ c, rrun mstep mm_empty ops = Ok c ∧
    (∀ a b, mm_contains c a b = mm_contains c b a) ∧
    (∀ a b, mm_get c a b = mm_get c b a) ∧
    (∀ a b, mm_contains c a b = true ↔ ∃ m p, s !! m = Some p ∧ same_pair p (a, b)) ∧
    (∀ a b m, mm_get c a b = Ok m ↔ ∃ p, s !! m = Some p ∧ same_pair p (a, b)).
Proof.
  intros (c & Hr & [Hb Hp Hu])%mm_main. exists c. split; [done|].
  assert (Hsym : ∀ a b, mm_pair c !! (a, b) = mm_pair c !! (b, a)).
  { intros a b. apply option_eq. intros m. rewrite !Hp. tauto. }
  assert (Hsp : ∀ a b m, mm_pair c !! (a, b) = Some m ↔ ∃ p, s !! m = Some p ∧ same_pair p (a, b)).
  { intros a b m. rewrite Hp. unfold same_pair. simpl. naive_solver. }
  split_and!.
  - intros a b. unfold mm_contains. by rewrite Hsym.
  - intros a b. unfold mm_get, mm_contains. by rewrite Hsym.
  - intros a b. unfold mm_contains. rewrite bool_decide_eq_true. unfold is_Some. by setoid_rewrite Hsp.
  - intros a b m. rewrite <- Hsp. unfold mm_get, mm_contains. destruct (mm_pair c !! (a, b)); simpl; split; congruence.
Qed.
Example C11_case :
  ∃ s, orun mspec ∅ [MCreate 7 1 2; MCreate 8 2 3; MSwap 8; MDestroy 7; MCreate 9 2 1] = Some s ∧
       s !! 9 = Some (2, 1) ∧ s !! 8 = Some (3, 2) ∧ s !! 7 = None.
Proof. eexists. split_and!; vm_compute; reflexivity. Qed.

Print Assumptions C21_entity_map_bijection.
Print Assumptions C21_precondition_needed.
Print Assumptions C11_manifold_lookup.

(** Proofs about insertion_point_index. *)
From Verif Require Import Outcome BoxModel PointModel.

Section best.
Context {Sc : Type} (better : Sc → Sc → bool).
Notation bstep := (λ '(m, bi, i) x, if better x m then (x, Some i, S i) else (m, bi, S i)).
Lemma best_aux l : ∀ (m : Sc) (bi : option nat) k,
  match foldl bstep (m, bi, k) l with
  | (m', bi', k') =>
    k' = k + length l ∧
    ((bi' = bi ∧ m' = m ∧ ∀ x, x ∈ l → better x m = false) ∨
     ((∃ i, bi' = Some (k + i) ∧ l !! i = Some m') ∧ ∃ x, x ∈ l ∧ better x m = true))
  end.
Proof.
  induction l as [|x l IH]; intros m bi k; simpl.
  - split; [lia|]. left. split_and!; [done..|]. intros x Hx. by apply elem_of_nil in Hx.
  - destruct (better x m) eqn:E.
    + specialize (IH x (Some k) (S k)). destruct (foldl bstep (x, Some k, S k) l) as [[m' bi'] k'].
      destruct IH as [-> [(-> & -> & H)|((i & -> & Hi) & _)]]; (split; [lia|]); right; (split; [|exists x; split; [by left|done]]).
      * exists 0. split; [f_equal; lia|done].
      * exists (S i). split; [f_equal; lia|done].
    + specialize (IH m bi (S k)). destruct (foldl bstep (m, bi, S k) l) as [[m' bi'] k'].
      destruct IH as [-> [(-> & -> & H)|((i & -> & Hi) & y & Hy & Ey)]]; (split; [lia|]).
      * left. split_and!; [done..|]. intros y [->|Hy]%elem_of_cons; [done|by apply H].
      * right. split; [|exists y; split; [by right|done]]. exists (S i). split; [f_equal; lia|done].
Qed.
Lemma best_lt init l i : best better init l = Some i → i < length l.
Proof.
  unfold best. pose proof (best_aux l init None 0) as H. destruct (foldl _ _ l) as [[m' bi'] k']. simpl.
  destruct H as [_ [(-> & _)|((j & -> & Hj) & _)]]; [done|]. intros [= <-]. by eapply lookup_lt_Some.
Qed.
Lemma best_none init l : best better init l = None ↔ ∀ x, x ∈ l → better x init = false.
Proof.
  unfold best. pose proof (best_aux l init None 0) as H. destruct (foldl _ _ l) as [[m' bi'] k']. simpl.
  destruct H as [_ [(-> & _ & H)|((j & -> & Hj) & x & Hx & Ex)]]; [done|]. split; [done|]. intros H. rewrite H in Ex; done.
Qed.

(** With a strict weak order: the chosen value beats the initial one and no
    value beats it. *)
Lemma best_max init l i :
  (∀ a b c, better a b = true → better b c = true → better a c = true) →
  (∀ a b c, better a b = false → better b c = false → better a c = false) →
  (∀ a, better a a = false) →
  best better init l = Some i →
  ∃ x, l !! i = Some x ∧ better x init = true ∧ ∀ y, y ∈ l → better y x = false.
Proof.
  intros Htr Hnt Hir.
  assert (Hasym : ∀ a b, better a b = true → better b a = false).
  { intros a b H. destruct (better b a) eqn:E; [|done]. rewrite <- (Hir a). symmetry. eauto. }
  assert (HH : ∀ l m (bi : option nat) k, match foldl bstep (m, bi, k) l with
    | (m', bi', _) => (m' = m ∨ better m' m = true) ∧ better m m' = false ∧ ∀ y, y ∈ l → better y m' = false end).
  { clear l. intros l. induction l as [|x l IH]; intros m bi k; simpl.
    - split_and!; [by left|done|]. intros y Hy. by apply elem_of_nil in Hy.
    - destruct (better x m) eqn:E.
      + specialize (IH x (Some k) (S k)). destruct (foldl bstep (x, Some k, S k) l) as [[m' bi'] k'].
        destruct IH as (H1 & H2 & H3). split_and!.
        * right. destruct H1 as [->|H1]; eauto.
        * destruct H1 as [->|H1]; eauto.
        * intros y [->|Hy]%elem_of_cons; auto.
      + specialize (IH m bi (S k)). destruct (foldl bstep (m, bi, S k) l) as [[m' bi'] k'].
        destruct IH as (H1 & H2 & H3). split_and!; [done|done|]. intros y [->|Hy]%elem_of_cons; eauto. }
  unfold best. pose proof (best_aux l init None 0) as H. specialize (HH l init None 0).
  destruct (foldl _ _ l) as [[m' bi'] k']. simpl.
  destruct H as [_ [(-> & _)|((j & -> & Hj) & x & Hx & Ex)]]; [done|]. intros [= <-]. exists m'.
  destruct HH as (H1 & H2 & H3). split_and!; [done| |done].
  destruct H1 as [->|H1]; [|done]. rewrite H3 in Ex; done.
Qed.
End best.

Section slot.
Context {V Sc X : Type} (G : geo V Sc).

(** What a returned slot may be. *)
Definition slot_ok (num : nat) (t : itype) (i n : nat) : Prop :=
  match t with
  | INone => n = num
  | IAppend => i = num ∧ n = S num ∧ n ≤ max_contacts
  | ISimilar | IReplace => i < num ∧ n = num
  end.
Definition finite3 (a b c : V) : Prop :=
  g_lt G (g_dist G a b) (g_max G) = true ∨ g_lt G (g_dist G b c) (g_max G) = true ∨ g_lt G (g_dist G c a) (g_max G) = true.

Lemma insertion_safe (pts : list V) num p :
  length pts = max_contacts → num ≤ max_contacts →
  (num = 3 → ∀ a b c, pts !! 0 = Some a → pts !! 1 = Some b → pts !! 2 = Some c → finite3 a b c) →
  ∃ t i n, insertion_point_index G pts num p = Ok (t, Some i, n) ∧ slot_ok num t i n.
Proof.
  intros Hlen Hnum Hfin. unfold max_contacts in *.
  destruct pts as [|p0 [|p1 [|p2 [|p3 [|]]]]]; try done. clear Hlen.
  unfold insertion_point_index. rewrite bool_decide_true by done. cbn [assert_ mbind res_bind].
  destruct num as [|[|[|[|[|]]]]]; [..|lia]; cbn [lookup list_lookup opt_res mbind res_bind].
  - do 3 eexists. split; [done|]. simpl. unfold max_contacts. lia.
  - destruct (g_lt G _ _); do 3 eexists; (split; [done|]); simpl; unfold max_contacts; lia.
  - destruct (g_lt G _ _); [do 3 eexists; (split; [done|]); simpl; unfold max_contacts; lia|].
    cbv zeta. destruct (_ && _); [do 3 eexists; (split; [done|]); destruct (g_lt G _ _); simpl; lia|].
    destruct (_ && _); [do 3 eexists; (split; [done|]); destruct (g_lt G _ _); simpl; lia|].
    do 3 eexists. split; [done|]. done.
  - destruct (g_norm G p0 p1 p2).
    { destruct (g_intri G _ _ _ _); do 3 eexists; (split; [done|]); simpl; unfold max_contacts; lia. }
    cbv zeta. destruct (_ && _); [do 3 eexists; (split; [done|]); simpl; lia|].
    destruct (_ && _); [do 3 eexists; (split; [done|]); simpl; lia|].
    destruct (_ && _); [do 3 eexists; (split; [done|]); simpl; lia|].
    destruct (best _ _ _) as [i|] eqn:E.
    + apply best_lt in E. do 3 eexists. split; [done|]. done.
    + exfalso. rewrite best_none in E. destruct (Hfin eq_refl p0 p1 p2) as [H|[H|H]]; try done;
        rewrite E in H; try done; rewrite !elem_of_cons; tauto.
  - cbv zeta. destruct (best _ _ _) as [i|] eqn:E.
    + apply best_lt in E. simpl in E. rewrite decide_True by done.
      destruct ([p0; p1; p2; p3] !! i) as [q|] eqn:Eq; [|apply lookup_ge_None in Eq; simpl in Eq; lia].
      cbn [opt_res mbind res_bind]. do 3 eexists. split; [done|]. destruct (g_lt G _ _); simpl; lia.
    + do 3 eexists. split; [done|]. done.
Qed.

Definition finite : Prop := ∀ a b, g_lt G (g_dist G a b) (g_max G) = true.

Lemma find_slot_safe (pts : list (rpoint V X)) num p :
  finite → length pts = max_contacts → num ≤ max_contacts →
  ∃ t i n, find_slot G pts num p = Ok (t, Some i, n) ∧ slot_ok num t i n.
Proof.
  intros Hf Hlen Hnum. unfold find_slot.
  destruct (insertion_safe (rp_a <$> pts) num (rp_a p)) as (t & i & n & -> & Hs); [by rewrite fmap_length|done|intros; left; apply Hf|].
  cbn [mbind res_bind]. destruct (decide (t = INone)) as [->|]; [|eauto]. simpl in Hs. subst n.
  apply insertion_safe; [by rewrite fmap_length|done|intros; left; apply Hf].
Qed.
End slot.

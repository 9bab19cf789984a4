(** The accumulated impulses stay within their limits. *)
From Coq Require Import Field_theory Field.
From Verif Require Import Outcome RowModel JointModel RowSpec RowSim RowField.

Section bounds.
Context {N : num}.
Notation T := (nt N).
Implicit Types (l : owned N) (s : store N) (e : elem N).

(** ** A pass changes nothing but impulses. *)
Lemma same_row_refl (r : row N) : same_row r r.
Proof. done. Qed.
Lemma same_irow_refl (i : irow N) : same_irow i i.
Proof. done. Qed.
Lemma same_fric_refl (f : fric N) : same_fric f f.
Proof. done. Qed.
Lemma same_spin_refl (p : spin N) : same_spin p p.
Proof. done. Qed.
Lemma opt_refl {A} (P : A → A → Prop) (o : option A) : (∀ x, P x x) → option_Forall2 P o o.
Proof. intros. destruct o; by constructor. Qed.
Lemma opt_trans {A} (P : A → A → Prop) (a b c : option A) :
  (∀ x y z, P x y → P y z → P x z) → option_Forall2 P a b → option_Forall2 P b c → option_Forall2 P a c.
Proof. intros HP H1 H2. destruct H1; inversion H2; subst; constructor; eauto. Qed.
Lemma same_elem_refl e : same_elem e e.
Proof. split; [done|]. split; [|split]; apply opt_refl; done. Qed.
Lemma same_fric_trans (a b c : fric N) : same_fric a b → same_fric b c → same_fric a c.
Proof. unfold same_fric, same_irow. naive_solver congruence. Qed.
Lemma same_spin_trans (a b c : spin N) : same_spin a b → same_spin b c → same_spin a c.
Proof. unfold same_spin. naive_solver congruence. Qed.
Lemma same_elem_trans a b c : same_elem (N:=N) a b → same_elem b c → same_elem a c.
Proof.
  intros (H1 & H2 & H3 & H4) (G1 & G2 & G3 & G4). split; [|split; [|split]].
  - unfold same_row in *. congruence.
  - eapply opt_trans; [apply same_fric_trans|done|done].
  - eapply opt_trans; [apply same_fric_trans|done|done].
  - eapply opt_trans; [apply same_spin_trans|done|done].
Qed.

Lemma friction_with_same (f : fric N) n s : same_fric f (fst (friction_with f n s)).
Proof.
  unfold friction_with. destruct (_ <? _); [destruct (_ <? _)|]; done.
Qed.
Lemma spin_with_same (p : spin N) n s : same_spin p (fst (spin_with p n s)).
Proof. unfold spin_with. destruct (clamp_imp _ _ _ _ _). done. Qed.

Lemma step_row_same e s : same_elem e (fst (step_row e s)).
Proof.
  unfold step_row, solve_row. destruct (clamp_imp _ _ _ _ _) as [i d]. cbn [fst].
  split; [done|]. split; [|split]; apply opt_refl; done.
Qed.
Lemma step_fric_same e s : same_elem e (fst (step_fric e s)).
Proof.
  unfold step_fric. destruct (e_fric e) as [f|] eqn:E; [|apply same_elem_refl].
  pose proof (friction_with_same f (e_row e) s) as H.
  destruct (friction_with f (e_row e) s) as [f' s']. cbn [fst] in *.
  split; [done|]. cbn [e_fric e_roll e_spin with_fric]. rewrite E.
  split; [by constructor|]. split; apply opt_refl; done.
Qed.
Lemma step_roll_same e s : same_elem e (fst (step_roll e s)).
Proof.
  unfold step_roll. destruct (e_roll e) as [f|] eqn:E; [|apply same_elem_refl].
  pose proof (friction_with_same f (e_row e) s) as H.
  destruct (friction_with f (e_row e) s) as [f' s']. cbn [fst] in *.
  split; [done|]. cbn [e_fric e_roll e_spin with_roll]. rewrite E.
  split; [apply opt_refl; done|]. split; [by constructor|]. apply opt_refl; done.
Qed.
Lemma step_spin_same e s : same_elem e (fst (step_spin e s)).
Proof.
  unfold step_spin. destruct (e_spin e) as [f|] eqn:E; [|apply same_elem_refl].
  pose proof (spin_with_same f (e_row e) s) as H.
  destruct (spin_with f (e_row e) s) as [f' s']. cbn [fst] in *.
  split; [done|]. cbn [e_fric e_roll e_spin with_spin]. rewrite E.
  split; [apply opt_refl; done|]. split; [apply opt_refl; done|]. by constructor.
Qed.

Definition same_owned (x y : (nat * nat) * elem N) : Prop :=
  fst x = fst y ∧ same_elem (snd x) (snd y).
Lemma same_owned_trans l1 l2 l3 :
  Forall2 same_owned l1 l2 → Forall2 same_owned l2 l3 → Forall2 same_owned l1 l3.
Proof.
  intros H. revert l3. induction H as [|x y l1 l2 [K H] _ IH]; intros l3 G.
  - apply Forall2_nil_inv_l in G as ->. constructor.
  - apply Forall2_cons_inv_l in G as (z & l & [K' H'] & G & ->). constructor; [|by apply IH].
    split; [congruence|]. by eapply same_elem_trans.
Qed.
Lemma sweep_same_owned f l s :
  (∀ e s, same_elem e (fst (f e s))) → Forall2 same_owned l (fst (sweep f l s)).
Proof.
  intros Hf. revert s. induction l as [|[key e] l IH]; intros s; [constructor|].
  cbn [sweep]. pose proof (Hf e s) as He. destruct (f e s) as [e' s'].
  specialize (IH s'). destruct (sweep f l s') as [l' s'']. by constructor.
Qed.
Lemma own_iteration_same l s : Forall2 same_owned l (fst (own_iteration l s)).
Proof.
  unfold own_iteration.
  pose proof (sweep_same_owned step_row l s step_row_same) as H1.
  destruct (sweep step_row l s) as [l1 s1].
  pose proof (sweep_same_owned step_fric l1 s1 step_fric_same) as H2.
  destruct (sweep step_fric l1 s1) as [l2 s2].
  pose proof (sweep_same_owned step_roll l2 s2 step_roll_same) as H3.
  destruct (sweep step_roll l2 s2) as [l3 s3].
  pose proof (sweep_same_owned step_spin l3 s3 step_spin_same) as H4.
  cbn [fst] in *. eauto using same_owned_trans.
Qed.
Lemma own_iterate_same n l s : Forall2 same_owned l (fst (own_iterate n l s)).
Proof.
  revert l s. induction n as [|n IH]; intros l s.
  - cbn [own_iterate fst]. induction l; constructor; [split; [done|apply same_elem_refl]|done].
  - cbn [own_iterate]. pose proof (own_iteration_same l s) as H.
    destruct (own_iteration l s) as [l' s']. cbn [fst] in H. eapply same_owned_trans; [done|apply IH].
Qed.

(** ** What holds after the last iteration. *)
Lemma sweep_make (P : elem N → Prop) f l s :
  (∀ e s, P (fst (f e s))) → Forall (λ x, P (snd x)) (fst (sweep f l s)).
Proof.
  intros Hf. revert s. induction l as [|[key e] l IH]; intros s; [constructor|].
  cbn [sweep]. pose proof (Hf e s) as He. destruct (f e s) as [e' s'].
  specialize (IH s'). destruct (sweep f l s') as [l' s'']. by constructor.
Qed.
Lemma sweep_keep (P : elem N → Prop) f l s :
  (∀ e s, P e → P (fst (f e s))) →
  Forall (λ x, P (snd x)) l → Forall (λ x, P (snd x)) (fst (sweep f l s)).
Proof.
  intros Hf Hl. revert s. induction Hl as [|[key e] l He _ IH]; intros s; [constructor|].
  cbn [sweep]. pose proof (Hf e s He) as He'. destruct (f e s) as [e' s'].
  specialize (IH s'). destruct (sweep f l s') as [l' s'']. by constructor.
Qed.

(** Something each pass establishes and the later ones keep. *)
Lemma iteration_make (P : elem N → Prop) l s :
  ((∀ e s, P (fst (step_row e s))) ∧ (∀ e s, P e → P (fst (step_fric e s)))
   ∧ (∀ e s, P e → P (fst (step_roll e s))) ∧ (∀ e s, P e → P (fst (step_spin e s))))
  ∨ ((∀ e s, P (fst (step_fric e s)))
     ∧ (∀ e s, P e → P (fst (step_roll e s))) ∧ (∀ e s, P e → P (fst (step_spin e s))))
  ∨ ((∀ e s, P (fst (step_roll e s))) ∧ (∀ e s, P e → P (fst (step_spin e s))))
  ∨ (∀ e s, P (fst (step_spin e s))) →
  Forall (λ x, P (snd x)) (fst (own_iteration l s)).
Proof.
  intros H. unfold own_iteration.
  pose proof (sweep_make P step_row l s) as A1.
  destruct (sweep step_row l s) as [l1 s1].
  pose proof (sweep_make P step_fric l1 s1) as A2.
  pose proof (sweep_keep P step_fric l1 s1) as B2.
  destruct (sweep step_fric l1 s1) as [l2 s2].
  pose proof (sweep_make P step_roll l2 s2) as A3.
  pose proof (sweep_keep P step_roll l2 s2) as B3.
  destruct (sweep step_roll l2 s2) as [l3 s3].
  pose proof (sweep_make P step_spin l3 s3) as A4.
  pose proof (sweep_keep P step_spin l3 s3) as B4.
  cbn [fst] in *. destruct H as [(H1 & H2 & H3 & H4)|[(H2 & H3 & H4)|[[H3 H4]|H4]]]; auto.
Qed.
Lemma own_iterate_last (P : elem N → Prop) n l s :
  (∀ l s, Forall (λ x, P (snd x)) (fst (own_iteration l s))) →
  Forall (λ x, P (snd x)) (fst (own_iterate (S n) l s)).
Proof.
  intros H. revert l s. induction n as [|n IH]; intros l s.
  - cbn [own_iterate]. specialize (H l s). by destruct (own_iteration l s).
  - change (own_iterate (S (S n)) l s)
      with (let '(l, s) := own_iteration l s in own_iterate (S n) l s).
    destruct (own_iteration l s) as [l' s']. apply IH.
Qed.

(** ** Limits of plain rows: only needs that no number is below itself. *)
Lemma clamp_bounded (old new delta lo up : T) :
  irreflexive N → le lo up →
  le lo (fst (clamp_imp old new delta lo up)) ∧ le (fst (clamp_imp old new delta lo up)) up.
Proof.
  intros Hirr Hle. unfold clamp_imp, le in *.
  destruct (new <? lo) eqn:E1; [by split; [apply Hirr|]|].
  destruct (up <? new) eqn:E2; [by split; [|apply Hirr]|]. done.
Qed.
Definition in_limits e : Prop := le (r_lo (e_row e)) (r_up (e_row e)) → row_bounded (e_row e).
Lemma own_in_limits n l s :
  irreflexive N → Forall (λ x, in_limits (snd x)) (fst (own_iterate (S n) l s)).
Proof.
  intros Hirr. apply own_iterate_last. intros l' s'. apply iteration_make.
  left. unfold in_limits. split; [|split; [|split]]; intros e s0.
  1: { unfold step_row, solve_row.
       pose proof (clamp_bounded (r_imp (e_row e))
         (r_imp (e_row e) ⊕ (r_rhs (e_row e) ⊖ relspeed (r_J (e_row e))
             (s_dv s0 (r_A (e_row e))) (s_dw s0 (r_A (e_row e)))
             (s_dv s0 (r_B (e_row e))) (s_dw s0 (r_B (e_row e)))) ⊙ r_eff (e_row e))
         ((r_rhs (e_row e) ⊖ relspeed (r_J (e_row e))
             (s_dv s0 (r_A (e_row e))) (s_dw s0 (r_A (e_row e)))
             (s_dv s0 (r_B (e_row e))) (s_dw s0 (r_B (e_row e)))) ⊙ r_eff (e_row e))
         (r_lo (e_row e)) (r_up (e_row e)) Hirr) as H.
       destruct (clamp_imp _ _ _ _ _) as [i d]. exact H. }
  - by rewrite step_fric_row.
  - by rewrite step_roll_row.
  - by rewrite step_spin_row.
Qed.

(** ** Friction and rolling: exact arithmetic. *)
Lemma friction_with_bounded (f : fric N) n s :
  exact N → has_sqrt N → fric_bounded (fst (friction_with f n s)) n.
Proof.
  intros ex Hs. unfold friction_with.
  set (w0 := _ ⊙ i_eff (f_0 f)). set (w1 := _ ⊙ i_eff (f_1 f)).
  set (a := i_imp (f_0 f) ⊕ w0). set (b := i_imp (f_1 f) ⊕ w1).
  set (m := f_mu f ⊙ r_imp n).
  destruct (m ⊙ m <? a ⊙ a ⊕ b ⊙ b) eqn:E.
  - destruct (Hs (a ⊙ a ⊕ b ⊙ b)) as [Hs1 Hs2].
    { apply (add_nonneg N ex); apply (sq_nonneg N ex). }
    destruct (neps <? nsqrt (a ⊙ a ⊕ b ⊙ b)) eqn:E2; unfold fric_bounded;
      cbn [fst f_0 f_1 f_mu set_iimp i_imp]; fold m.
    + rewrite (rescale N ex); [apply (le_refl N ex)| |done].
      intros H. rewrite H in E2.
      pose proof (ex_trans N ex _ _ _ (ex_eps N ex) E2) as H'. by rewrite (lt_irr N ex) in H'.
    + replace (n0 ⊙ n0 ⊕ n0 ⊙ n0) with (n0 (n:=N)).
      * apply (sq_nonneg N ex).
      * by rewrite (zero_circle N ex).
  - exact E.
Qed.
Definition in_circle e : Prop := ∀ f, e_fric e = Some f → fric_bounded f (e_row e).
Definition in_roll e : Prop := ∀ f, e_roll e = Some f → fric_bounded f (e_row e).
Definition in_spin e : Prop :=
  ∀ p, e_spin e = Some p → le n0 (p_mu p ⊙ r_imp (e_row e)) → spin_bounded p (e_row e).

Lemma own_in_circle n l s :
  exact N → has_sqrt N → Forall (λ x, in_circle (snd x)) (fst (own_iterate (S n) l s)).
Proof.
  intros ex Hs. apply own_iterate_last. intros l' s'. apply iteration_make.
  right. left. unfold in_circle. split; [|split]; intros e s0.
  - unfold step_fric. destruct (e_fric e) as [f|] eqn:E; [|cbn [fst]; congruence].
    pose proof (friction_with_bounded f (e_row e) s0 ex Hs) as H.
    destruct (friction_with f (e_row e) s0) as [f' s1]. cbn [fst with_fric e_fric e_row] in *.
    by intros ? [= <-].
  - by rewrite step_roll_row, step_roll_fric.
  - by rewrite step_spin_row, step_spin_fric.
Qed.
Lemma own_in_roll n l s :
  exact N → has_sqrt N → Forall (λ x, in_roll (snd x)) (fst (own_iterate (S n) l s)).
Proof.
  intros ex Hs. apply own_iterate_last. intros l' s'. apply iteration_make.
  right. right. left. unfold in_roll. split; intros e s0.
  - unfold step_roll. destruct (e_roll e) as [f|] eqn:E; [|cbn [fst]; congruence].
    pose proof (friction_with_bounded f (e_row e) s0 ex Hs) as H.
    destruct (friction_with f (e_row e) s0) as [f' s1]. cbn [fst with_roll e_roll e_row] in *.
    by intros ? [= <-].
  - by rewrite step_spin_row, step_spin_roll.
Qed.
Lemma own_in_spin n l s :
  exact N → Forall (λ x, in_spin (snd x)) (fst (own_iterate (S n) l s)).
Proof.
  intros ex. apply own_iterate_last. intros l' s'. apply iteration_make.
  right. right. right. unfold in_spin. intros e s0.
  unfold step_spin. destruct (e_spin e) as [p|] eqn:E; [|cbn [fst]; congruence].
  unfold spin_with.
  set (dl := _ ⊙ p_eff p).
  pose proof (clamp_bounded (p_imp p) (p_imp p ⊕ dl) dl
    (nneg (p_mu p ⊙ r_imp (e_row e))) (p_mu p ⊙ r_imp (e_row e)) (ex_irr N ex)) as H.
  destruct (clamp_imp _ _ _ _ _) as [i d]. cbn [fst with_spin e_spin e_row] in *.
  intros q [= <-]. cbn [p_mu set_pimp]. intros Hn. apply H.
  eapply (le_trans N ex); [by apply (le_neg N ex)|done].
Qed.

End bounds.

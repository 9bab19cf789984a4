(** In exact arithmetic the delta velocities are exactly what the accumulated
    impulses produce; linear momentum; complementarity of one row. *)
From Coq Require Import Field_theory Field.
From Verif Require Import Outcome RowModel JointModel RowSpec RowSim RowField RowBounds.

Section vel.
Context (N : num) (ex : exact N).
Notation T := (nt N).
Add Field nfield : (ex_field N ex).
Implicit Types (l : owned N) (s : store N) (e : elem N) (p : ptr).

Lemma vec_eq (a b : vec N) : vx a = vx b → vy a = vy b → vz a = vz b → a = b.
Proof. destruct a, b. simpl. congruence. Qed.
Ltac vring := apply vec_eq; cbn [vx vy vz vadd vzero svmul vsmul vneg]; ring.

Lemma vadd_0_l (a : vec N) : vadd vzero a = a. Proof. vring. Qed.
Lemma vadd_0_r (a : vec N) : vadd a vzero = a. Proof. vring. Qed.
Lemma vadd_assoc (a b c : vec N) : vadd a (vadd b c) = vadd (vadd a b) c. Proof. vring. Qed.
Lemma vadd_comm (a b : vec N) : vadd a b = vadd b a. Proof. vring. Qed.
Lemma vadd_cancel (a b c : vec N) : vadd a c = vadd b c → a = b.
Proof.
  intros H. transitivity (vadd (vadd a c) (vneg c)); [vring|]. rewrite H. vring.
Qed.
Lemma vsum_app (a b : list (vec N)) : vsum (a ++ b) = vadd (vsum a) (vsum b).
Proof.
  induction a as [|x a IH]; simpl; [by rewrite vadd_0_l|]. unfold vsum in *. simpl.
  rewrite IH. apply vadd_assoc.
Qed.

(** ** Applying an impulse. *)
Lemma upd_at (f : ptr → vec N) q v p : upd f q v p = if decide (p = q) then v else f p.
Proof. done. Qed.
Lemma apply_row_dv (r : row N) i s p :
  s_dv (apply_row i r s) p = vadd (s_dv s p) (push_lin r p (r_J r, i)).
Proof.
  unfold apply_row, add_dv, add_dw, push_lin. cbn [s_dv s_dw fst snd]. rewrite !upd_at.
  destruct (decide (p = r_B r)) as [->|]; destruct (decide (r_B r = r_A r)) as [E|];
    try rewrite E; try (destruct (decide (p = r_A r)) as [->|]); try congruence;
    repeat (destruct (decide _); try congruence); vring.
Qed.
Lemma apply_row_dw (r : row N) i s p :
  s_dw (apply_row i r s) p = vadd (s_dw s p) (push_ang r p (r_J r, i)).
Proof.
  unfold apply_row, add_dv, add_dw, push_ang. cbn [s_dv s_dw fst snd]. rewrite !upd_at.
  destruct (decide (p = r_B r)) as [->|]; destruct (decide (r_B r = r_A r)) as [E|];
    try rewrite E; try (destruct (decide (p = r_A r)) as [->|]); try congruence;
    repeat (destruct (decide _); try congruence); vring.
Qed.
Lemma apply_irow_dv (r : irow N) n i s p :
  s_dv (apply_irow i r n s) p = vadd (s_dv s p) (push_lin n p (i_J r, i)).
Proof.
  unfold apply_irow, add_dv, add_dw, push_lin. cbn [s_dv s_dw fst snd]. rewrite !upd_at.
  destruct (decide (p = r_B n)) as [->|]; destruct (decide (r_B n = r_A n)) as [E|];
    try rewrite E; try (destruct (decide (p = r_A n)) as [->|]); try congruence;
    repeat (destruct (decide _); try congruence); vring.
Qed.
Lemma apply_irow_dw (r : irow N) n i s p :
  s_dw (apply_irow i r n s) p = vadd (s_dw s p) (push_ang n p (i_J r, i)).
Proof.
  unfold apply_irow, add_dv, add_dw, push_ang. cbn [s_dv s_dw fst snd]. rewrite !upd_at.
  destruct (decide (p = r_B n)) as [->|]; destruct (decide (r_B n = r_A n)) as [E|];
    try rewrite E; try (destruct (decide (p = r_A n)) as [->|]); try congruence;
    repeat (destruct (decide _); try congruence); vring.
Qed.
Lemma apply_spin_dv (q : spin N) n i s p :
  s_dv (apply_spin i q n s) p
  = vadd (s_dv s p) (push_lin n p (Jac vzero (p_J0 q) vzero (p_J1 q), i)).
Proof.
  unfold apply_spin, add_dw, push_lin. cbn [s_dv s_dw fst snd j0 j2].
  repeat destruct (decide _); vring.
Qed.
Lemma apply_spin_dw (q : spin N) n i s p :
  s_dw (apply_spin i q n s) p
  = vadd (s_dw s p) (push_ang n p (Jac vzero (p_J0 q) vzero (p_J1 q), i)).
Proof.
  unfold apply_spin, add_dv, add_dw, push_ang. cbn [s_dv s_dw fst snd j1 j3]. rewrite !upd_at.
  destruct (decide (p = r_B n)) as [->|]; destruct (decide (r_B n = r_A n)) as [E|];
    try rewrite E; try (destruct (decide (p = r_A n)) as [->|]); try congruence;
    repeat (destruct (decide _); try congruence); vring.
Qed.

(** ** Linearity in the impulse. *)
Lemma push_lin_add n p (J : jac N) (a b : T) :
  push_lin n p (J, a ⊕ b) = vadd (push_lin n p (J, a)) (push_lin n p (J, b)).
Proof. unfold push_lin. cbn [fst snd]. repeat destruct (decide _); vring. Qed.
Lemma push_ang_add n p (J : jac N) (a b : T) :
  push_ang n p (J, a ⊕ b) = vadd (push_ang n p (J, a)) (push_ang n p (J, b)).
Proof. unfold push_ang. cbn [fst snd]. repeat destruct (decide _); vring. Qed.

Lemma clamp_delta (old delta lo up : T) :
  let x := clamp_imp old (old ⊕ delta) delta lo up in fst x = old ⊕ snd x.
Proof.
  cbn zeta. unfold clamp_imp. destruct (_ <? _); [cbn; ring|]. destruct (_ <? _); cbn; ring.
Qed.

(** The store before and after a pass over one element. *)
Definition accounted (e e' : elem N) s s' : Prop :=
  (∀ p, vadd (s_dv s p) (elem_lin p e') = vadd (s_dv s' p) (elem_lin p e))
  ∧ (∀ p, vadd (s_dw s p) (elem_ang p e') = vadd (s_dw s' p) (elem_ang p e)).

Lemma push_row n n' p (x : jac N * T) :
  same_row n n' → push_lin n p x = push_lin n' p x ∧ push_ang n p x = push_ang n' p x.
Proof.
  unfold same_row, set_imp. intros H. destruct n, n'. simpl in H. injection H as -> -> -> -> -> -> -> -> -> -> ->.
  done.
Qed.
Lemma vsum_cons (a : vec N) b : vsum (a :: b) = vadd a (vsum b).
Proof. done. Qed.
Lemma map_push_lin n n' p (l : list (jac N * T)) :
  same_row n n' → map (push_lin n p) l = map (push_lin n' p) l.
Proof. intros H. apply map_ext. intros x. by apply (push_row n n'). Qed.
Lemma map_push_ang n n' p (l : list (jac N * T)) :
  same_row n n' → map (push_ang n p) l = map (push_ang n' p) l.
Proof. intros H. apply map_ext. intros x. by apply (push_row n n'). Qed.

Lemma step_row_accounted e s : accounted e (fst (step_row e s)) s (snd (step_row e s)).
Proof.
  unfold step_row, solve_row.
  set (dl := _ ⊙ r_eff (e_row e)).
  pose proof (clamp_delta (r_imp (e_row e)) dl (r_lo (e_row e)) (r_up (e_row e))) as H.
  cbn zeta in H.
  destruct (clamp_imp _ _ _ _ _) as [i d]. cbn [fst snd] in *. subst i.
  assert (same_row (set_imp (e_row e) (r_imp (e_row e) ⊕ d)) (e_row e)) as Hs by done.
  split; intros p; [rewrite apply_row_dv|rewrite apply_row_dw];
    unfold elem_lin, elem_ang, pushes; cbn [e_row e_fric e_roll e_spin with_row];
    [rewrite (map_push_lin _ _ _ _ Hs)|rewrite (map_push_ang _ _ _ _ Hs)];
    cbn [map r_J r_imp set_imp]; rewrite !vsum_cons;
    [rewrite push_lin_add|rewrite push_ang_add];
    match goal with |- context [vsum ?x] => generalize (vsum x) end; intros v;
    rewrite !vadd_assoc; f_equal; rewrite <- !vadd_assoc; f_equal; apply vadd_comm.
Qed.

Lemma friction_with_delta (f : fric N) n s :
  let x := friction_with f n s in
  ∃ d0 d1, i_imp (f_0 (fst x)) = i_imp (f_0 f) ⊕ d0 ∧ i_imp (f_1 (fst x)) = i_imp (f_1 f) ⊕ d1
    ∧ i_J (f_0 (fst x)) = i_J (f_0 f) ∧ i_J (f_1 (fst x)) = i_J (f_1 f)
    ∧ snd x = apply_irow d1 (f_1 f) n (apply_irow d0 (f_0 f) n s).
Proof.
  cbn zeta. unfold friction_with.
  set (w0 := _ ⊙ i_eff (f_0 f)). set (w1 := _ ⊙ i_eff (f_1 f)).
  destruct (_ <? _); [destruct (_ <? _)|]; eexists _, _; cbn [fst snd f_0 f_1 set_iimp i_imp i_J];
    (split; [|split; [|split; [done|split; [done|reflexivity]]]]); ring.
Qed.

Lemma step_fric_accounted e s : accounted e (fst (step_fric e s)) s (snd (step_fric e s)).
Proof.
  unfold step_fric. destruct (e_fric e) as [f|] eqn:E; [|done].
  destruct (friction_with_delta f (e_row e) s) as (d0 & d1 & H0 & H1 & J0 & J1 & Hs).
  destruct (friction_with f (e_row e) s) as [f' s']. cbn [fst snd] in *. subst s'.
  split; intros p; [rewrite !apply_irow_dv|rewrite !apply_irow_dw];
    unfold elem_lin, elem_ang, pushes; cbn [e_row e_fric e_roll e_spin with_fric];
    rewrite E; cbn [from_option fric_pushes map app]; rewrite !vsum_cons, H0, H1, J0, J1;
    [rewrite !push_lin_add|rewrite !push_ang_add];
    match goal with |- context [vsum ?x] => generalize (vsum x) end; intros v;
    match goal with |- context [vadd ?a (vadd (vadd ?b ?c) (vadd (vadd ?d ?g) v))] =>
      generalize a, b, c, d, g; intros end; vring.
Qed.
Lemma step_roll_accounted e s : accounted e (fst (step_roll e s)) s (snd (step_roll e s)).
Proof.
  unfold step_roll. destruct (e_roll e) as [f|] eqn:E; [|done].
  destruct (friction_with_delta f (e_row e) s) as (d0 & d1 & H0 & H1 & J0 & J1 & Hs).
  destruct (friction_with f (e_row e) s) as [f' s']. cbn [fst snd] in *. subst s'.
  split; intros p; [rewrite !apply_irow_dv|rewrite !apply_irow_dw];
    unfold elem_lin, elem_ang, pushes; cbn [e_row e_fric e_roll e_spin with_roll];
    rewrite E; cbn [from_option]; unfold fric_pushes at 2 4; cbn [map];
    rewrite !map_app, !vsum_cons, !vsum_app; cbn [map]; rewrite !vsum_cons, H0, H1, J0, J1;
    [rewrite !push_lin_add|rewrite !push_ang_add];
    repeat match goal with |- context [vsum ?x] => generalize (vsum x); intros ? end;
    repeat match goal with |- context [push_lin ?a ?b ?c] => generalize (push_lin a b c); intros ? end;
    repeat match goal with |- context [push_ang ?a ?b ?c] => generalize (push_ang a b c); intros ? end;
    vring.
Qed.
Lemma step_spin_accounted e s : accounted e (fst (step_spin e s)) s (snd (step_spin e s)).
Proof.
  unfold step_spin. destruct (e_spin e) as [q|] eqn:E; [|done].
  unfold spin_with. set (dl := _ ⊙ p_eff q).
  pose proof (clamp_delta (p_imp q) dl (nneg (p_mu q ⊙ r_imp (e_row e))) (p_mu q ⊙ r_imp (e_row e))) as H.
  cbn zeta in H.
  destruct (clamp_imp _ _ _ _ _) as [i d]. cbn [fst snd] in *. subst i.
  split; intros p; [rewrite !apply_spin_dv|rewrite !apply_spin_dw];
    unfold elem_lin, elem_ang, pushes; cbn [e_row e_fric e_roll e_spin with_spin];
    rewrite E; cbn [from_option p_J0 p_J1 p_imp set_pimp map];
    rewrite !map_app, !vsum_cons, !vsum_app; cbn [map]; rewrite !vsum_cons;
    [rewrite !push_lin_add|rewrite !push_ang_add];
    repeat match goal with |- context [vsum ?x] => generalize (vsum x); intros ? end;
    repeat match goal with |- context [push_lin ?a ?b ?c] => generalize (push_lin a b c); intros ? end;
    repeat match goal with |- context [push_ang ?a ?b ?c] => generalize (push_ang a b c); intros ? end;
    vring.
Qed.

Definition balanced l l' s s' : Prop :=
  (∀ p, vadd (s_dv s p) (total_lin l' p) = vadd (s_dv s' p) (total_lin l p))
  ∧ (∀ p, vadd (s_dw s p) (total_ang l' p) = vadd (s_dw s' p) (total_ang l p)).
Lemma total_lin_cons x l p : total_lin (x :: l) p = vadd (elem_lin p (snd x)) (total_lin l p).
Proof. done. Qed.
Lemma total_ang_cons x l p : total_ang (x :: l) p = vadd (elem_ang p (snd x)) (total_ang l p).
Proof. done. Qed.
(** a + x' = b + x and b + y' = c + y give a + (x' + y') = c + (x + y). *)
Lemma chain (a b c x x' y y' : vec N) :
  vadd a x' = vadd b x → vadd b y' = vadd c y → vadd a (vadd x' y') = vadd c (vadd x y).
Proof.
  intros H1 H2. rewrite vadd_assoc, H1, <- vadd_assoc, (vadd_comm x), vadd_assoc, H2.
  rewrite <- vadd_assoc. f_equal. apply vadd_comm.
Qed.
Lemma chain2 (a b c x y z : vec N) :
  vadd a y = vadd b x → vadd b z = vadd c y → vadd a z = vadd c x.
Proof.
  intros H1 H2. apply (vadd_cancel _ _ y).
  transitivity (vadd (vadd a y) z); [vring|]. rewrite H1.
  transitivity (vadd (vadd b z) x); [vring|]. rewrite H2. vring.
Qed.
Lemma balanced_trans l1 l2 l3 s1 s2 s3 :
  balanced l1 l2 s1 s2 → balanced l2 l3 s2 s3 → balanced l1 l3 s1 s3.
Proof.
  intros [H1 H2] [G1 G2]. split; intros p.
  - eapply chain2; [apply H1|apply G1].
  - eapply chain2; [apply H2|apply G2].
Qed.
Lemma sweep_balanced f l s :
  (∀ e s, accounted e (fst (f e s)) s (snd (f e s))) →
  balanced l (fst (sweep f l s)) s (snd (sweep f l s)).
Proof.
  intros Hf. revert s. induction l as [|[key e] l IH]; intros s; [done|].
  cbn [sweep]. pose proof (Hf e s) as [H1 H2]. destruct (f e s) as [e' s']. cbn [fst snd] in *.
  destruct (IH s') as [G1 G2]. destruct (sweep f l s') as [l' s'']. cbn [fst snd] in *.
  split; intros p; rewrite ?total_lin_cons, ?total_ang_cons; cbn [snd];
    eapply chain; eauto.
Qed.
Lemma own_iteration_balanced l s :
  balanced l (fst (own_iteration l s)) s (snd (own_iteration l s)).
Proof.
  unfold own_iteration.
  pose proof (sweep_balanced step_row l s step_row_accounted) as H1.
  destruct (sweep step_row l s) as [l1 s1].
  pose proof (sweep_balanced step_fric l1 s1 step_fric_accounted) as H2.
  destruct (sweep step_fric l1 s1) as [l2 s2].
  pose proof (sweep_balanced step_roll l2 s2 step_roll_accounted) as H3.
  destruct (sweep step_roll l2 s2) as [l3 s3].
  pose proof (sweep_balanced step_spin l3 s3 step_spin_accounted) as H4.
  cbn [fst snd] in *. eauto using balanced_trans.
Qed.
Lemma own_iterate_balanced n l s :
  balanced l (fst (own_iterate n l s)) s (snd (own_iterate n l s)).
Proof.
  revert l s. induction n as [|n IH]; intros l s; [done|]. cbn [own_iterate].
  pose proof (own_iteration_balanced l s) as H. destruct (own_iteration l s) as [l' s'].
  cbn [fst snd] in H. eapply balanced_trans; [done|apply IH].
Qed.

(** ** Warm start. *)
Definition added (s s' : store N) (v w : ptr → vec N) : Prop :=
  (∀ p, s_dv s' p = vadd (s_dv s p) (v p)) ∧ (∀ p, s_dw s' p = vadd (s_dw s p) (w p)).
Lemma foldl_added (h : store N → (nat * nat) * elem N → store N)
    (v w : ptr → elem N → vec N) l s :
  (∀ s x, added s (h s x) (λ p, v p (snd x)) (λ p, w p (snd x))) →
  added s (foldl h s l) (λ p, vsum (map (λ x, v p (snd x)) l)) (λ p, vsum (map (λ x, w p (snd x)) l)).
Proof.
  intros Hh. revert s. induction l as [|x l IH]; intros s.
  - split; intros p; simpl; by rewrite vadd_0_r.
  - cbn [foldl map]. destruct (Hh s x) as [H1 H2]. destruct (IH (h s x)) as [G1 G2].
    split; intros p; rewrite vsum_cons, vadd_assoc; [rewrite G1, H1|rewrite G2, H2]; done.
Qed.

Lemma own_warm_added l s : added s (own_warm l s) (total_lin l) (total_ang l).
Proof.
  unfold own_warm.
  set (s1 := foldl _ s l).
  assert (added s s1 (λ p, vsum (map (λ x, push_lin (e_row (snd x)) p (r_J (e_row (snd x)), r_imp (e_row (snd x)))) l))
                     (λ p, vsum (map (λ x, push_ang (e_row (snd x)) p (r_J (e_row (snd x)), r_imp (e_row (snd x)))) l)))
    as [A1 B1].
  { apply (foldl_added _ (λ p e, push_lin (e_row e) p (r_J (e_row e), r_imp (e_row e)))
                         (λ p e, push_ang (e_row e) p (r_J (e_row e), r_imp (e_row e)))).
    intros s0 x. split; intros p; [apply apply_row_dv|apply apply_row_dw]. }
  clearbody s1. set (s2 := foldl _ s1 l).
  assert (Hfr : ∀ (pr : elem N → option (fric N)) s0 (x : (nat * nat) * elem N),
    added s0 (from_option (λ f, warm_friction_with f (e_row (snd x)) s0) s0 (pr (snd x)))
      (λ p, vsum (map (push_lin (e_row (snd x)) p) (from_option fric_pushes [] (pr (snd x)))))
      (λ p, vsum (map (push_ang (e_row (snd x)) p) (from_option fric_pushes [] (pr (snd x : elem N)))))).
  { intros pr s0 x. destruct (pr (snd x)) as [f|]; cbn [from_option fric_pushes map].
    - unfold warm_friction_with. split; intros p; [rewrite !apply_irow_dv|rewrite !apply_irow_dw];
        rewrite !vsum_cons; cbn [vsum foldr]; rewrite vadd_0_r; by rewrite vadd_assoc.
    - split; intros p; cbn [vsum foldr]; by rewrite vadd_0_r. }
  pose proof (foldl_added
    (λ s x, from_option (λ f, warm_friction_with f (e_row (snd x)) s) s (e_fric (snd x)))
    (λ p e, vsum (map (push_lin (e_row e) p) (from_option fric_pushes [] (e_fric e))))
    (λ p e, vsum (map (push_ang (e_row e) p) (from_option fric_pushes [] (e_fric e))))
    l s1 (Hfr e_fric)) as [A2 B2]. fold s2 in A2, B2.
  clearbody s2. set (s3 := foldl _ s2 l).
  pose proof (foldl_added
    (λ s x, from_option (λ f, warm_friction_with f (e_row (snd x)) s) s (e_roll (snd x)))
    (λ p e, vsum (map (push_lin (e_row e) p) (from_option fric_pushes [] (e_roll e))))
    (λ p e, vsum (map (push_ang (e_row e) p) (from_option fric_pushes [] (e_roll e))))
    l s2 (Hfr e_roll)) as [A3 B3]. fold s3 in A3, B3.
  clearbody s3. set (s4 := foldl _ s3 l).
  assert (added s3 s4
    (λ p, vsum (map (λ x, vsum (map (push_lin (e_row (snd x)) p)
       (from_option (λ q, [(Jac vzero (p_J0 q) vzero (p_J1 q), p_imp q)]) [] (e_spin (snd x))))) l))
    (λ p, vsum (map (λ x, vsum (map (push_ang (e_row (snd x)) p)
       (from_option (λ q, [(Jac vzero (p_J0 q) vzero (p_J1 q), p_imp q)]) [] (e_spin (snd x))))) l)))
    as [A4 B4].
  { apply (foldl_added _
       (λ p e, vsum (map (push_lin (e_row e) p)
          (from_option (λ q, [(Jac vzero (p_J0 q) vzero (p_J1 q), p_imp q)]) [] (e_spin e))))
       (λ p e, vsum (map (push_ang (e_row e) p)
          (from_option (λ q, [(Jac vzero (p_J0 q) vzero (p_J1 q), p_imp q)]) [] (e_spin e))))).
    intros s0 x. destruct (e_spin (snd x)) as [q|]; cbn [from_option map].
    - split; intros p; [rewrite apply_spin_dv|rewrite apply_spin_dw];
        rewrite !vsum_cons; cbn [vsum foldr]; by rewrite vadd_0_r.
    - split; intros p; cbn [vsum foldr]; by rewrite vadd_0_r. }
  clearbody s4.
  assert (Hsum : ∀ (f1 f2 f3 f4 h : (nat * nat) * elem N → vec N),
    (∀ x, h x = vadd (f1 x) (vadd (f2 x) (vadd (f3 x) (f4 x)))) →
    vadd (vsum (map f1 l)) (vadd (vsum (map f2 l)) (vadd (vsum (map f3 l)) (vsum (map f4 l))))
    = vsum (map h l)).
  { intros f1 f2 f3 f4 h Hh. clear - ex Hh. induction l as [|x l IH]; [simpl; vring|].
    cbn [map]. rewrite !vsum_cons, <- IH, Hh. vring. }
  split; intros p.
  - rewrite A4, A3, A2, A1, <- !vadd_assoc. f_equal. apply Hsum. intros x.
    unfold elem_lin, pushes. cbn [map]. rewrite vsum_cons, !map_app, !vsum_app. done.
  - rewrite B4, B3, B2, B1, <- !vadd_assoc. f_equal. apply Hsum. intros x.
    unfold elem_ang, pushes. cbn [map]. rewrite vsum_cons, !map_app, !vsum_app. done.
Qed.

(** The whole velocity phase. *)
Lemma own_velocity n l s :
  let R := own_iterate n l (own_warm l s) in
  ∀ p, s_dv (snd R) p = vadd (s_dv s p) (total_lin (fst R) p)
     ∧ s_dw (snd R) p = vadd (s_dw s p) (total_ang (fst R) p).
Proof.
  intros R p. destruct (own_iterate_balanced n l (own_warm l s)) as [H1 H2].
  destruct (own_warm_added l s) as [W1 W2]. fold R in H1, H2.
  specialize (H1 p). specialize (H2 p). rewrite W1 in H1. rewrite W2 in H2. split.
  - apply (vadd_cancel _ _ (total_lin l p)). rewrite <- H1, <- !vadd_assoc. f_equal. apply vadd_comm.
  - apply (vadd_cancel _ _ (total_ang l p)). rewrite <- H2, <- !vadd_assoc. f_equal. apply vadd_comm.
Qed.

(** ** Linear momentum. *)
Lemma momentum_add (m : nat → T) ps (v w u : ptr → vec N) :
  (∀ p, u p = vadd (v p) (w p)) → momentum m ps u = vadd (momentum m ps v) (momentum m ps w).
Proof.
  intros H. induction ps as [|p ps IH]; [unfold momentum; simpl; vring|]. unfold momentum in *. cbn [map].
  rewrite !vsum_cons, IH, H. vring.
Qed.
Lemma momentum_zero (m : nat → T) ps : momentum (N:=N) m ps (λ _, vzero) = vzero.
Proof. induction ps as [|p ps IH]; [done|]. unfold momentum in *. cbn [map]. rewrite vsum_cons, IH. vring. Qed.
Lemma momentum_one (m : nat → T) ps a (x : vec N) :
  NoDup ps → a ∈ ps →
  momentum m ps (λ p, if decide (p = Some a) then x else vzero) = svmul (m a) x.
Proof.
  induction ps as [|p ps IH]; intros Hnd Ha; [by apply elem_of_nil in Ha|].
  apply NoDup_cons in Hnd as [Hp Hnd]. unfold momentum in *. cbn [map]. rewrite vsum_cons.
  destruct (decide (p = a)) as [->|Hne].
  - rewrite decide_True by done.
    assert (vsum (map (λ p : nat, svmul (m p) (if decide (Some p = Some a) then x else vzero)) ps) = vzero) as ->.
    { clear - Hp ex. induction ps as [|q ps IH]; [done|]. apply not_elem_of_cons in Hp as [H1 H2].
      cbn [map]. rewrite vsum_cons, (IH H2), decide_False by congruence. vring. }
    vring.
  - rewrite decide_False by congruence. rewrite IH; [vring|done|].
    apply elem_of_cons in Ha as [->|Ha]; [done|done].
Qed.

Definition opposite (J : jac N) : Prop := j2 J = vneg (j0 J).
(** A row between two dynamic bodies of [ps], pushing them apart equally. *)
Definition internal (m : nat → T) (ps : list nat) (e : elem N) : Prop :=
  (∃ a b, r_A (e_row e) = Some a ∧ r_B (e_row e) = Some b ∧ a ∈ ps ∧ b ∈ ps
          ∧ m a ⊙ r_imA (e_row e) = n1 ∧ m b ⊙ r_imB (e_row e) = n1)
  ∧ Forall (λ x, opposite (fst x)) (pushes e).

Lemma push_momentum m ps (n : row N) a b x :
  NoDup ps → r_A n = Some a → r_B n = Some b → a ∈ ps → b ∈ ps →
  m a ⊙ r_imA n = n1 → m b ⊙ r_imB n = n1 → opposite (fst x) →
  momentum m ps (λ p, push_lin n p x) = vzero.
Proof.
  intros Hnd HA HB Ha Hb Hma Hmb Ho.
  rewrite (momentum_add m ps
    (λ p, if decide (p = Some a) then vsmul (svmul (r_imA n) (j0 (fst x))) (snd x) else vzero)
    (λ p, if decide (p = Some b) then vsmul (svmul (r_imB n) (j2 (fst x))) (snd x) else vzero)).
  2: { intros p. unfold push_lin. by rewrite HA, HB. }
  rewrite !momentum_one by done. rewrite Ho.
  transitivity (vadd (vsmul (svmul (m a ⊙ r_imA n) (j0 (fst x))) (snd x))
                     (vsmul (svmul (m b ⊙ r_imB n) (vneg (j0 (fst x)))) (snd x))); [vring|].
  rewrite Hma, Hmb. vring.
Qed.
Lemma elem_momentum m ps e :
  NoDup ps → internal m ps e → momentum m ps (λ p, elem_lin p e) = vzero.
Proof.
  intros Hnd [(a & b & HA & HB & Ha & Hb & Hma & Hmb) Ho]. unfold elem_lin.
  induction Ho as [|x xs Hx _ IH]; [apply momentum_zero|].
  cbn [map]. erewrite momentum_add by (intros p; apply vsum_cons).
  rewrite IH. erewrite push_momentum; eauto. vring.
Qed.
Lemma total_momentum m ps l :
  NoDup ps → Forall (λ x, internal m ps (snd x)) l → momentum m ps (total_lin l) = vzero.
Proof.
  intros Hnd Hl. induction Hl as [|x l Hx _ IH]; [apply momentum_zero|].
  rewrite (momentum_add m ps (λ p, elem_lin p (snd x)) (total_lin l))
    by (intros p; apply total_lin_cons).
  rewrite IH, elem_momentum by done. vring.
Qed.

Lemma internal_same m ps e e' : same_elem e e' → internal m ps e → internal m ps e'.
Proof.
  intros (Hr & Hf & Hro & Hs) [(a & b & HA & HB & Ha & Hb & Hma & Hmb) Ho].
  unfold same_row, set_imp in Hr.
  assert (r_J (e_row e') = r_J (e_row e) ∧ r_imA (e_row e') = r_imA (e_row e)
          ∧ r_imB (e_row e') = r_imB (e_row e) ∧ r_A (e_row e') = r_A (e_row e)
          ∧ r_B (e_row e') = r_B (e_row e)) as (EJ & EA & EB & PA & PB).
  { by injection Hr. }
  split.
  - exists a, b. rewrite EA, EB, PA, PB. done.
  - unfold pushes in *. apply Forall_cons in Ho as [H0 Ho]. apply Forall_app in Ho as [H1 Ho].
    apply Forall_app in Ho as [H2 H3]. constructor; [cbn [fst] in *; by rewrite EJ|].
    assert (Hfr : ∀ o o' : option (fric N), option_Forall2 same_fric o o' →
      Forall (λ x, opposite (fst x)) (from_option fric_pushes [] o) →
      Forall (λ x, opposite (fst x)) (from_option fric_pushes [] o')).
    { intros o o' H G. destruct H as [f f' ((E1 & _) & (E2 & _) & _)|]; [|done].
      cbn [from_option fric_pushes] in *. apply Forall_cons in G as [G1 G].
      apply Forall_cons in G as [G2 _]. cbn [fst] in *.
      repeat constructor; cbn [fst]; by rewrite <- ?E1, <- ?E2. }
    apply Forall_app. split; [by eapply Hfr|]. apply Forall_app. split; [by eapply Hfr|].
    destruct Hs as [q q' (E1 & E2 & _)|]; [|done]. cbn [from_option] in *.
    apply Forall_cons in H3 as [H3 _]. repeat constructor. cbn [fst] in *. by rewrite <- E1, <- E2.
Qed.

Lemma own_momentum m ps n l s :
  NoDup ps → Forall (λ x, internal m ps (snd x)) l →
  momentum m ps (s_dv (snd (own_iterate n l (own_warm l s)))) = momentum m ps (s_dv s).
Proof.
  intros Hnd Hl.
  set (R := own_iterate n l (own_warm l s)).
  rewrite (momentum_add m ps (s_dv s) (total_lin (fst R))) by (intros p; apply own_velocity).
  rewrite total_momentum; [vring|done|].
  pose proof (own_iterate_same n l (own_warm l s)) as H.
  fold R in H. clearbody R. clear - H Hl.
  induction H as [|x y l l' [_ H] _ IH]; [constructor|].
  apply Forall_cons in Hl as [H1 H2]. constructor; [by eapply internal_same|by apply IH].
Qed.

(** ** Complementarity of one row. *)
Lemma dot_add (a b c : vec N) : dot a (vadd b c) = dot a b ⊕ dot a c.
Proof. unfold dot. cbn [vadd vx vy vz]. ring. Qed.
Lemma dot_comm (a b : vec N) : dot a b = dot b a.
Proof. unfold dot. ring. Qed.
Lemma dot_smul (a b : vec N) i : dot a (vsmul b i) = dot a b ⊙ i.
Proof. unfold dot. cbn [vsmul vx vy vz]. ring. Qed.
Lemma dot_svmul (a b : vec N) k : dot a (svmul k b) = dot a b ⊙ k.
Proof. unfold dot. cbn [svmul vx vy vz]. ring. Qed.

Definition speed (r : row N) s : T :=
  relspeed (r_J r) (s_dv s (r_A r)) (s_dw s (r_A r)) (s_dv s (r_B r)) (s_dw s (r_B r)).
Definition inv_mass (r : row N) : T := jmj (r_J r) (r_imA r) (r_IA r) (r_imB r) (r_IB r).

Lemma apply_row_speed (r : row N) d s :
  r_A r ≠ r_B r → speed r (apply_row d r s) = speed r s ⊕ inv_mass r ⊙ d.
Proof.
  intros Hne. unfold speed, relspeed.
  rewrite !apply_row_dv, !apply_row_dw. unfold push_lin, push_ang. cbn [fst snd].
  rewrite !(decide_True (P := r_A r = r_A r)), !(decide_True (P := r_B r = r_B r)) by done.
  rewrite !(decide_False (P := r_A r = r_B r)), !(decide_False (P := r_B r = r_A r)) by congruence.
  rewrite !vadd_0_r, !vadd_0_l, !dot_add, !dot_smul, !dot_svmul. unfold inv_mass, jmj.
  rewrite (dot_comm (mvmul (r_IA r) _)), (dot_comm (mvmul (r_IB r) _)). ring.
Qed.

Lemma row_complementary (r : row N) s :
  r_A r ≠ r_B r → (n0 <? inv_mass r) = true → r_eff r = n1 ⊘ inv_mass r → le (r_lo r) (r_up r) →
  let r' := fst (solve_row r s) in
  let v := speed r (apply_row (snd (solve_row r s)) r s) in
  le (r_lo r) (r_imp r') ∧ le (r_imp r') (r_up r)
  ∧ ((r_imp r' <? r_up r) = true → le (r_rhs r) v)
  ∧ ((r_lo r <? r_imp r') = true → le v (r_rhs r)).
Proof.
  intros Hne Hpos Heff Hle r' v. unfold v. rewrite apply_row_speed by done.
  unfold r', solve_row. fold (speed r s). rewrite Heff.
  set (k := inv_mass r) in *. set (v0 := speed r s) in *.
  assert (k ≠ n0) as Hk by (intros E; rewrite E in Hpos; by rewrite (lt_irr N ex) in Hpos).
  set (d := (r_rhs r ⊖ v0) ⊙ (n1 ⊘ k)).
  assert (Hd : r_rhs r = v0 ⊕ k ⊙ d) by (unfold d; by field).
  clearbody d. unfold clamp_imp.
  destruct (r_imp r ⊕ d <? r_lo r) eqn:E1; [|destruct (r_up r <? r_imp r ⊕ d) eqn:E2];
    cbn [fst snd r_imp set_imp].
  - split; [apply (le_refl N ex)|]. split; [done|]. split.
    + intros _. apply (proj2 (le_sub N ex _ _)). rewrite Hd.
      replace (v0 ⊕ k ⊙ (r_lo r ⊖ r_imp r) ⊖ (v0 ⊕ k ⊙ d)) with (k ⊙ (r_lo r ⊖ (r_imp r ⊕ d))) by ring.
      apply (mul_nonneg N ex); [by apply (lt_le N ex)|]. apply (proj1 (le_sub N ex _ _)). by apply (lt_le N ex).
    + by rewrite (lt_irr N ex).
  - split; [done|]. split; [apply (le_refl N ex)|]. split.
    + by rewrite (lt_irr N ex).
    + intros _. apply (proj2 (le_sub N ex _ _)). rewrite Hd.
      replace (v0 ⊕ k ⊙ d ⊖ (v0 ⊕ k ⊙ (r_up r ⊖ r_imp r))) with (k ⊙ (r_imp r ⊕ d ⊖ r_up r)) by ring.
      apply (mul_nonneg N ex); [by apply (lt_le N ex)|]. apply (proj1 (le_sub N ex _ _)). by apply (lt_le N ex).
  - split; [done|]. split; [done|]. rewrite <- Hd. split; intros _; apply (le_refl N ex).
Qed.

Lemma zero_push (v : vec N) i : vsmul (svmul n0 v) i = vzero ∧ vsmul (mvmul mzero v) i = vzero.
Proof.
  split; apply vec_eq; cbn [vx vy vz svmul vsmul mvmul mzero m0 m1 m2 vzero]; unfold dot;
    cbn [vx vy vz vzero]; ring.
Qed.

(** ** A row alone. *)
Lemma solve_again (r : row N) s s' :
  r_A r ≠ r_B r → (n0 <? inv_mass r) = true → r_eff r = n1 ⊘ inv_mass r →
  (∀ p, s_dv s' p = s_dv (apply_row (snd (solve_row r s)) r s) p
      ∧ s_dw s' p = s_dw (apply_row (snd (solve_row r s)) r s) p) →
  solve_row (fst (solve_row r s)) s' = (fst (solve_row r s), n0).
Proof.
  intros Hne Hpos Heff Hs.
  assert (Hv : speed r s' = speed r s ⊕ inv_mass r ⊙ snd (solve_row r s)).
  { rewrite <- apply_row_speed by done. unfold speed.
    by rewrite !(proj1 (Hs _)), !(proj2 (Hs _)). }
  clear Hs. revert Hv. unfold solve_row at 1 2 3 4. fold (speed r s).
  rewrite Heff. set (k := inv_mass r) in *. set (v0 := speed r s) in *.
  assert (k ≠ n0) as Hk by (intros E; rewrite E in Hpos; by rewrite (lt_irr N ex) in Hpos).
  set (d := (r_rhs r ⊖ v0) ⊙ (n1 ⊘ k)).
  assert (Hd : r_rhs r = v0 ⊕ k ⊙ d) by (unfold d; by field).
  clearbody d. unfold clamp_imp.
  destruct (r_imp r ⊕ d <? r_lo r) eqn:E1; [|destruct (r_up r <? r_imp r ⊕ d) eqn:E2];
    cbn [fst snd]; intros Hv; unfold solve_row;
    cbn [set_imp r_J r_A r_B r_rhs r_eff r_imp r_lo r_up]; fold (speed r s'); rewrite Hv, Heff, Hd.
  - replace (r_lo r ⊕ (v0 ⊕ k ⊙ d ⊖ (v0 ⊕ k ⊙ (r_lo r ⊖ r_imp r))) ⊙ (n1 ⊘ k))
      with (r_imp r ⊕ d) by (by field).
    unfold clamp_imp. rewrite E1. f_equal; ring.
  - replace (r_up r ⊕ (v0 ⊕ k ⊙ d ⊖ (v0 ⊕ k ⊙ (r_up r ⊖ r_imp r))) ⊙ (n1 ⊘ k))
      with (r_imp r ⊕ d) by (by field).
    unfold clamp_imp. rewrite E1, E2. f_equal; ring.
  - replace (r_imp r ⊕ d ⊕ (v0 ⊕ k ⊙ d ⊖ (v0 ⊕ k ⊙ d)) ⊙ (n1 ⊘ k))
      with (r_imp r ⊕ d) by (by field).
    unfold clamp_imp. rewrite E1, E2. f_equal; try done; by field.
Qed.

Lemma lone_row (r : row N) s n :
  r_A r ≠ r_B r → (n0 <? inv_mass r) = true → r_eff r = n1 ⊘ inv_mass r →
  let a := iterate_cache 1 (Cache [r] [1] [Flags false false false] [] [] []) s in
  let b := iterate_cache (S n) (Cache [r] [1] [Flags false false false] [] [] []) s in
  ∃ k sa sb, a = Ok (k, sa) ∧ b = Ok (k, sb)
    ∧ ∀ p, s_dv sb p = s_dv sa p ∧ s_dw sb p = s_dw sa p.
Proof.
  intros Hne Hpos Heff a b.
  set (r' := fst (solve_row r s)). set (s1 := apply_row (snd (solve_row r s)) r s).
  set (k := Cache [r'] [1] [Flags false false false] [] [] []).
  assert (Hstep : ∀ r s, solve_cache (Cache [r] [1] [Flags false false false] [] [] []) s
    = Ok (Cache [fst (solve_row r s)] [1] [Flags false false false] [] [] [],
          apply_row (snd (solve_row r s)) r s)).
  { intros r0 s0. unfold solve_cache. cbn [k_rows k_num k_flags k_fric k_roll k_spin solve_rows].
    by destruct (solve_row r0 s0). }
  exists k, s1.
  assert (∀ m s2, (∀ p, s_dv s2 p = s_dv s1 p ∧ s_dw s2 p = s_dw s1 p) →
    ∃ sb, iterate_cache m k s2 = Ok (k, sb) ∧ ∀ p, s_dv sb p = s_dv s1 p ∧ s_dw sb p = s_dw s1 p) as Hm.
  { induction m as [|m IH]; intros s2 H2; [by exists s2|].
    cbn [iterate_cache]. unfold k at 1. rewrite Hstep. cbn [mbind res_bind].
    pose proof (solve_again r s s2 Hne Hpos Heff H2) as E. fold r' in E. rewrite E. cbn [fst snd].
    fold k. apply IH. intros p. rewrite apply_row_dv, apply_row_dw.
    assert (∀ J, push_lin r' p (J, n0) = vzero ∧ push_ang r' p (J, n0) = vzero) as Hz.
    { intros J. unfold push_lin, push_ang. cbn [fst snd].
      split; repeat destruct (decide _); vring. }
    destruct (Hz (r_J r')) as [-> ->]. rewrite !vadd_0_r. apply H2. }
  destruct (Hm n s1) as (sb & E & Hsb); [done|].
  exists sb. split; [|split; [|done]].
  - unfold a. cbn [iterate_cache]. by rewrite Hstep.
  - unfold b. cbn [iterate_cache]. rewrite Hstep. exact E.
Qed.

End vel.

(** Concrete cases for RowProps.v and the boundaries of its statements. *)
From Coq Require Import QArith Qcanon Field_theory Reals Lra.
From Verif Require Import Outcome RowModel JointModel RowSpec JointLens PackProofs RowVel RowProps.
Local Open Scope nat_scope.

(** ** Numbers. *)
(** Rationals: exact arithmetic, without square roots. *)
Definition q_ltb (a b : Qc) : bool := match Qccompare a b with Lt => true | _ => false end.
Definition qz (z : Z) : Qc := Q2Qc (inject_Z z).
Definition QN : num :=
  Num Qc (qz 0) (qz 1) Qcplus Qcminus Qcmult Qcdiv Qcopp (λ x, x) q_ltb
      (Q2Qc (1 # 1000)) (qz 1000000) (qz 100000000) (qz 1).

Lemma q_ltb_true a b : q_ltb a b = true ↔ (a < b)%Qc.
Proof.
  unfold q_ltb. rewrite Qclt_alt. destruct (a ?= b)%Qc; split; intros H; congruence.
Qed.
Lemma q_ltb_false a b : q_ltb a b = false ↔ (b <= a)%Qc.
Proof.
  rewrite <- not_true_iff_false, q_ltb_true. split; [apply Qcnot_lt_le|apply Qcle_not_lt].
Qed.

Example rationals_exact : exact QN.
Proof.
  split.
  - pose proof Qcft as F. constructor.
    + exact (F_R F).
    + exact (F_1_neq_0 F).
    + intros p q. change (p / q = p * (1 / q))%Qc. unfold Qcdiv. by rewrite Qcmult_1_l.
    + intros p Hp. change (1 / p * p = 1)%Qc. unfold Qcdiv. rewrite Qcmult_1_l. by apply (Finv_l F).
  - intros x. cbn. rewrite q_ltb_false. apply Qcle_refl.
  - intros x y z. cbn. rewrite !q_ltb_true. apply Qclt_trans.
  - intros x y. cbn. rewrite !q_ltb_false. intros. by apply Qcle_antisym.
  - intros x y z. cbn. rewrite !q_ltb_true. unfold Qclt. intros H.
    change (this (x + z)%Qc) with (Qred (x + z)). change (this (y + z)%Qc) with (Qred (y + z)).
    rewrite !Qred_correct. by apply Qplus_lt_l.
  - intros x y. cbn. rewrite !q_ltb_true. unfold Qclt. intros Hx Hy.
    change (this (x * y)%Qc) with (Qred (x * y)). rewrite Qred_correct.
    change (this (qz 0)) with 0%Q in *. by apply Qmult_lt_0_compat.
  - reflexivity.
Qed.

(** Real numbers: exact arithmetic with square roots.  Only this case uses the
    axioms of the standard library's real numbers. *)
Definition r_ltb (a b : R) : bool := if Rlt_dec a b then true else false.
Definition RN : num :=
  Num R 0%R 1%R Rplus Rminus Rmult Rdiv Ropp R_sqrt.sqrt r_ltb 1%R 1%R 1%R 1%R.
Lemma r_ltb_true a b : r_ltb a b = true ↔ (a < b)%R.
Proof. unfold r_ltb. destruct (Rlt_dec a b); split; intros; done. Qed.
Lemma r_ltb_false a b : r_ltb a b = false ↔ (b <= a)%R.
Proof. rewrite <- not_true_iff_false, r_ltb_true. split; [apply Rnot_lt_le|apply Rle_not_lt]. Qed.
Example reals_exact_sqrt : exact RN ∧ has_sqrt RN ∧ le (N:=RN) n0 nlarge.
Proof.
  split; [split|split].
  - pose proof Rfield as F. constructor.
    + exact (F_R F).
    + exact (F_1_neq_0 F).
    + intros p q. cbn. unfold Rdiv. by rewrite Rmult_1_l.
    + intros p Hp. cbn in *. unfold Rdiv. rewrite Rmult_1_l. by apply (Finv_l F).
  - intros x. cbn. rewrite r_ltb_false. apply Rle_refl.
  - intros x y z. cbn. rewrite !r_ltb_true. apply Rlt_trans.
  - intros x y. cbn. rewrite !r_ltb_false. intros. by apply Rle_antisym.
  - intros x y z. cbn. rewrite !r_ltb_true. apply Rplus_lt_compat_r.
  - intros x y. cbn. rewrite !r_ltb_true. apply Rmult_lt_0_compat.
  - cbn. rewrite r_ltb_true. apply Rlt_0_1.
  - intros x. cbn. rewrite !r_ltb_false. intros H. split; [apply sqrt_pos|by apply sqrt_sqrt].
  - unfold le. cbn. rewrite r_ltb_false. apply Rle_0_1.
Qed.
Definition qn (z : Z) : QN := qz z.
Definition qf (q : Q) : QN := Q2Qc q.
Definition fr (x : QN) : Q := this x.
Local Open Scope Q_scope.

(** ** An island of three bodies: a contact (entity 5) between bodies 1 and 2,
    a hinge (entity 6) between body 2 and the world. *)
Definition qv (x y z : Z) : vec QN := Vec (N:=QN) (qn x) (qn y) (qn z).
Definition zv : vec QN := qv 0 0 0.
Definition eye : mat QN := Mat (qv 1 0 0) (qv 0 1 0) (qv 0 0 1).
Definition bod (i : nat) : body QN :=
  match i with
  | 1%nat => @Body QN (Some 1%nat) (qn 1) eye (qv 1 (-2) 0) (qv 0 0 3)
  | 2%nat => @Body QN (Some 2%nat) (qf (1 # 2)) eye zv zv
  | _ => @Body QN None (qn 0) (@mzero QN) zv zv
  end.
Definition lin (v w : vec QN) : jac QN := @Jac QN v w (@vneg QN v) (@vneg QN w).
Definition gc : geo QN :=
  @Geo QN (λ i, match i with
                | 0%nat => lin (qv 0 1 0) zv
                | 1%nat => lin (qv 1 0 0) zv
                | 2%nat => lin (qv 0 0 1) zv
                | _ => lin zv (qv 0 1 0) end)
      (λ _, qn 0) (λ _, qn 0) (λ _, qn 0) (λ _, qn 0) true.
Definition gh : geo QN :=
  @Geo QN (λ i, match i with
                | 0%nat => lin (qv 1 0 0) zv | 1%nat => lin (qv 0 1 0) zv
                | 2%nat => lin (qv 0 0 1) zv | 3%nat => lin zv (qv 1 0 0)
                | 4%nat => lin zv (qv 0 1 0) | _ => lin zv (qv 0 0 1) end)
      (λ _, qn 0) (λ _, qn 0) (λ _, qn 0) (λ _, qn 0) true.
Definition geos (e t : nat) : geo QN := if (e =? 6)%nat then gh else gc.
Definition q0 : list QN := [qn 0].
Definition hingeq (torque damp : Z) : hinge_cfg QN :=
  @HingeCfg QN (qn 0) (qn 0) (qn 0) (qn 0) (qn torque) (qn 0) (qn 0) (qn damp) (qn 0).
Definition contact5 (i : Z) : con QN :=
  @Con QN (KContact (@ContactCfg QN (qn 0) (qn 1))) [qn i; qn 0; qn 0] 1 2.
Definition hinge6 (torque damp : Z) : con QN :=
  @Con QN (KHinge (hingeq torque damp)) (replicate 9 (qn 0)) 2 3.
Definition st0 : store QN := @Store QN (λ _, zv) (λ _, zv).
Definition cs0 : consmap QN := {[ (5, 8)%nat := contact5 0; (6, 3)%nat := hinge6 2 0 ]}.

(** Deciding [island_fits] for a map with listed keys. *)
Definition fits_at (key : nat * nat) (c : con QN) : bool :=
  Nat.ltb (snd key) 10 && Nat.eqb (kind (c_cfg c)) (snd key)
  && Nat.eqb (length (c_imp c)) (slots (c_cfg c))
  && match prepared (qn 1) geos bod key c with Ok _ => true | _ => false end
  && match c_cfg c with KPoint t => g_spin (geos (fst key) (snd key)) | _ => true end.
Lemma fits_by (es : list nat) (cs : consmap QN) (l : list ((nat * nat) * con QN)) :
  cs = list_to_map l → bool_decide (NoDup es) = true →
  forallb (λ x, fits_at (fst x) (snd x)) l = true →
  forallb (λ e, Nat.leb (length (entity_cons cs e)) 8
     && Nat.leb (length (concat (map (λ x, elems_of (qn 1) geos bod (e, fst x) (snd x))
                                 (entity_cons cs e)))) 16) es = true →
  island_fits es (qn 1) geos bod cs.
Proof.
  intros Hcs Hes Hl He. split; [by apply bool_decide_eq_true in Hes|]. split.
  - intros e t c _ Hc. rewrite Hcs in Hc. apply elem_of_list_to_map_2 in Hc.
    rewrite forallb_forall in Hl. apply elem_of_list_In in Hc. specialize (Hl _ Hc).
    unfold fits_at in Hl. cbn [fst snd] in Hl. rewrite !andb_true_iff in Hl.
    destruct Hl as [[[[H1 H2] H3] H4] H5]. apply Nat.ltb_lt in H1. split; [done|].
    apply Nat.eqb_eq in H2, H3. split; [done|]. split; [done|]. split.
    + destruct (prepared _ _ _ _ _) as [r| | |]; try done. by exists r.
    + cbn [fst snd]. unfold spinning. destruct (c_cfg c); done.
  - intros e H. rewrite forallb_forall in He. apply elem_of_list_In in H.
    specialize (He _ H). apply andb_true_iff in He as [H1 H2].
    apply Nat.leb_le in H1, H2. by split.
Qed.

Example cs0_fits : island_fits [5; 6]%nat (qn 1) geos bod cs0.
Proof.
  apply (fits_by _ _ [((5, 8)%nat, contact5 0); ((6, 3)%nat, hinge6 2 0)]);
    [done|vm_compute; reflexivity..].
Qed.

(** What one step of two iterations does: the impulses of the contact and of
    the hinge, and the velocities of body 1, as fractions. *)
Definition show (r : res (consmap QN * cache QN * store QN)) (e t : nat) (p : ptr)
    : option (list Q * Q * Q) :=
  match r with
  | Ok (cs, k, s) =>
      Some (from_option (λ c : con QN, map fr (c_imp c)) [] (cs !! (e, t)),
            fr (vx (s_dv s p)), fr (vy (s_dv s p)))
  | _ => None
  end.
Definition run0 := island_step [5; 6]%nat 2 (qn 1) geos bod cs0 st0.
Example run0_contact : show run0 5 8 (Some 1%nat) = Some ([16#9; -8#9; 0], -8#9, 16#9).
Proof. vm_compute. reflexivity. Qed.
Example run0_hinge :
  show run0 6 3 (Some 2%nat) = Some ([-2#3; 4#3; 0; 0; 0; 0; 0; 0; 0], 1#9, -2#9).
Proof. vm_compute. reflexivity. Qed.

(** The hypotheses of the theorems hold of it. *)
Example run0_come_back := impulses_come_back [5; 6]%nat 2 (qn 1) geos bod cs0 st0 cs0_fits.
Example run0_limits :=
  rows_within_limits [5; 6]%nat 1 (qn 1) geos bod cs0 st0 cs0_fits 6 3 (hinge6 2 0)
    (ex_irr _ rationals_exact) ltac:(set_solver) ltac:(done).
Example run0_hinge_torque cs' k s' : run0 = Ok (cs', k, s') →
  ∃ c', cs' !! (6, 3)%nat = Some c' ∧ le (qn (-2)) (fld (c_imp c') 8) ∧ le (fld (c_imp c') 8) (qn 2).
Proof.
  intros H.
  destruct (hinge_friction_bounded [5; 6]%nat 1 (qn 1) geos bod cs0 st0 cs0_fits 6 (hinge6 2 0) (hingeq 2 0)
    cs' k s' (ex_irr _ rationals_exact)) as (c' & H1 & H2 & H3).
  - by right; left.
  - done.
  - done.
  - vm_compute. reflexivity.
  - vm_compute. reflexivity.
  - vm_compute. reflexivity.
  - exact H.
  - exists c'. split; [exact H1|].
    replace (qn (-2)) with (nneg (h_torque (hingeq 2 0) ⊙ qn 1)) by (apply Qc_is_canon; vm_compute; reflexivity).
    replace (qn 2) with (h_torque (hingeq 2 0) ⊙ qn 1) by (apply Qc_is_canon; vm_compute; reflexivity).
    by split.
Qed.
Example run0_velocities cs' k s' (H : run0 = Ok (cs', k, s')) :=
  velocities_match_impulses [5; 6]%nat 2 (qn 1) geos bod cs0 st0 cs0_fits cs' k s' rationals_exact H.
Example run0_fixed cs' k s' (H : run0 = Ok (cs', k, s')) :
  s_dv s' None = s_dv st0 None ∧ s_dw s' None = s_dw st0 None.
Proof.
  apply (fixed_bodies_stay [5; 6]%nat 2 (qn 1) geos bod cs0 st0 cs0_fits cs' k s' rationals_exact H).
  clear H. intros [|[|[|i]]] E; [by split|discriminate E|discriminate E|by split].
Qed.

Lemma rows_forall {N : num} (P : (nat * nat) * elem N → Prop) es dt g bodies cs :
  (∀ e t c, e ∈ es → cs !! (e, t) = Some c →
     Forall P (map (pair (e, t)) (elems_of dt g bodies (e, t) c))) →
  Forall P (island_rows es dt g bodies cs).
Proof.
  intros H. unfold island_rows. apply Forall_concat, Forall_map, Forall_forall. intros t _.
  apply Forall_concat, Forall_map, Forall_forall. intros e He.
  destruct (cs !! (e, t)) as [c|] eqn:E; [by apply H|apply Forall_nil_2].
Qed.

(** Only the contact, with a stored impulse: momentum is conserved. *)
Definition cs1 : consmap QN := {[ (5, 8)%nat := contact5 3 ]}.
Definition mass1 (i : nat) : QN := if (i =? 1)%nat then qn 1 else qn 2.
Lemma cs1_fits : island_fits [5]%nat (qn 1) geos bod cs1.
Proof. apply (fits_by _ _ [((5, 8)%nat, contact5 3)]); [done|vm_compute; reflexivity..]. Qed.
Definition run1 := island_step [5]%nat 1 (qn 1) geos bod cs1 st0.
Example run1_contact : show run1 5 8 (Some 1%nat) = Some ([4#3; -2#3; 0], -2#3, 4#3).
Proof. vm_compute. reflexivity. Qed.
Example run1_momentum cs' k s' (H : run1 = Ok (cs', k, s')) :
  momentum mass1 [1; 2]%nat (s_dv s') = momentum mass1 [1; 2]%nat (s_dv st0).
Proof.
  apply (momentum_conserved [5]%nat 1 (qn 1) geos bod cs1 st0 cs1_fits cs' k s' mass1
           [1; 2]%nat rationals_exact H); clear H.
  - apply NoDup_ListNoDup. repeat constructor; cbn; lia.
  - apply rows_forall. intros e t c He Hc. unfold cs1 in Hc.
    apply lookup_singleton_Some in Hc as [[= <- <-] <-].
    unfold elems_of, prepared. cbn [c_cfg contact5 c_imp c_a c_b fst snd].
    unfold prepare, prep_contact. destruct (assert_ _) as [u| | |]; cbn [mbind res_bind map];
      [|apply Forall_nil_2..].
    apply Forall_cons_2; [|apply Forall_nil_2]. split.
    + exists 1%nat, 2%nat. split; [done|]. split; [done|]. split; [by left|]. split; [by right; left|].
      split; apply Qc_is_canon; vm_compute; reflexivity.
    + cbn [snd pushes finish_row e_row e_fric e_roll e_spin from_option fric_pushes app].
      apply Forall_cons_2; [done|]. apply Forall_cons_2; [done|]. apply Forall_cons_2; [done|].
      apply Forall_nil_2.
Qed.

(** ** One row: a contact approaching at speed 2 stops approaching. *)
Definition row1 : row QN :=
  @Row QN (lin (qv 0 1 0) zv) (@ndiv QN n1 (qf (3 # 2))) (qn 2) (qn 0) (qn 1000) (qn 0)
       (qn 1) (qf (1 # 2)) eye eye (Some 1%nat) (Some 2%nat).
Example row1_case :
  let x := solve_row row1 st0 in
  fr (r_imp (fst x)) = 4#3 ∧ fr (speed QN row1 (apply_row (snd x) row1 st0)) = 2
  ∧ r_A row1 ≠ r_B row1 ∧ nltb n0 (inv_mass QN row1) = true
  ∧ r_eff row1 = ndiv n1 (inv_mass QN row1) ∧ le (r_lo row1) (r_up row1).
Proof.
  split; [by vm_compute|]. split; [by vm_compute|]. split; [done|]. split; [by vm_compute|].
  split; [|by vm_compute]. apply Qc_is_canon. by vm_compute.
Qed.

(** ** Clearing. *)
Example contact_cleared :
  length (c_imp (contact5 3)) = slots (c_cfg (contact5 3))
  ∧ (length (slots_of (c_cfg (contact5 3)) true) <= 16)%nat
  ∧ clear_impulses (contact5 3) = Ok (contact5 0).
Proof. split; [done|]. split; [by apply Nat.leb_le|done]. Qed.

(** * Boundaries. *)
(** Without velocity iterations the stored impulse is applied and kept, even
    outside its limits: a contact can pull. *)
Definition cs2 : consmap QN := {[ (5, 8)%nat := contact5 (-1) ]}.
Theorem limits_without_iterations_refuted :
  island_fits [5]%nat (qn 1) geos bod cs2
  ∧ show (island_step [5]%nat 0 (qn 1) geos bod cs2 st0) 5 8 (Some 1%nat)
    = Some ([-1; 0; 0], 0, -1).
Proof.
  split; [|vm_compute; reflexivity].
  apply (fits_by _ _ [((5, 8)%nat, contact5 (-1))]); [done|vm_compute; reflexivity..].
Qed.

(** A negative friction torque together with damping gives a row whose lower
    limit is above the upper one; the impulse ends above the upper limit. *)
Definition cs3 : consmap QN := {[ (6, 3)%nat := hinge6 (-2) 1 ]}.
Theorem inverted_limits_refuted :
  island_fits [6]%nat (qn 1) geos bod cs3
  ∧ show (island_step [6]%nat 4 (qn 1) geos bod cs3 st0) 6 3 None
    = Some ([0; 0; 0; 0; 0; 0; 0; 0; 2], 0, 0)
  ∧ fr (nmul (h_torque (hingeq (-2) 1)) (qn 1)) = -2.
Proof.
  split; [|split; vm_compute; reflexivity].
  apply (fits_by _ _ [((6, 3)%nat, hinge6 (-2) 1)]); [done|vm_compute; reflexivity..].
Qed.

(** A point constraint with friction between bodies without relative angular
    velocity reads an impulse that is not there. *)
Definition still (e t : nat) : geo QN :=
  @Geo QN (g_J gh) (λ _, qn 0) (λ _, qn 0) (λ _, qn 0) (λ _, qn 0) false.
Definition cs4 : consmap QN :=
  {[ (6, 7)%nat := @Con QN (KPoint (qn 1)) (replicate 4 (qn 0)) 2 3 ]}.
Theorem point_friction_at_rest_refuted :
  island_fits [6]%nat (qn 1) geos bod cs4
  ∧ island_step [6]%nat 1 (qn 1) still bod cs4 st0 = UB.
Proof.
  split; [|vm_compute; reflexivity].
  apply (fits_by _ _ [((6, 7)%nat, @Con QN (KPoint (qn 1)) (replicate 4 (qn 0)) 2 3)]);
    [done|vm_compute; reflexivity..].
Qed.

(** A generic constraint that uses everything it offers has 24 rows; the cache
    of an entity holds 16. *)
Definition full_dof : dof_cfg QN :=
  @DofCfg QN true (qn (-1)) (qn 1) (qf (1 # 2)) (qn 1) (qn 1) (qn 0) (qn 1) (qn 1).
Definition generic_full : con QN :=
  @Con QN (KGeneric full_dof full_dof full_dof full_dof full_dof full_dof) (replicate 24 (qn 0)) 2 3.
Theorem generic_rows_overflow_refuted :
  kind (c_cfg generic_full) = 4%nat ∧ length (c_imp generic_full) = slots (c_cfg generic_full)
  ∧ island_step [6]%nat 1 (qn 1) geos bod {[ (6, 4)%nat := generic_full ]} st0 = AssertFail.
Proof. split; [done|]. split; [done|]. vm_compute. reflexivity. Qed.

(** Nine kinds of constraint on one entity: the ninth writes past the counts
    kept for eight, although their fifteen rows fit. *)
Definition idle_dof : dof_cfg QN :=
  @DofCfg QN false (qn 0) (qn 0) (qn 0) (qn 0) (qn 0) (qn 0) (qn 0) (qn 0).
Definition on6 (c : config QN) : con QN := @Con QN c (replicate (slots c) (qn 0)) 1 2.
Definition nine : list (config QN) :=
  [KGravity; KDistance; KSoft (qn 1) (qn 1) (qn 1); KHinge (hingeq 0 0);
   KGeneric idle_dof idle_dof idle_dof idle_dof idle_dof idle_dof; KCone (qn 0) (qn 0);
   KPoint (qn 0); KContact (@ContactCfg QN (qn 0) (qn 1));
   KExtras (@ContactCfg QN (qn 0) (qn 1)) (@ExtrasCfg QN (qn 1) (qn 1000000) (qn 0) (qn 0) (qn 0))].
Definition cs9 (l : list (config QN)) : consmap QN :=
  list_to_map (map (λ c, ((7, kind c)%nat, on6 c)) l).
Theorem ninth_constraint_refuted :
  match island_step [7]%nat 1 (qn 1) geos bod (cs9 (take 8 nine)) st0 with
  | Ok (_, k, _) => length (k_rows k) | _ => 0%nat end = 14%nat
  ∧ island_step [7]%nat 1 (qn 1) geos bod (cs9 nine) st0 = UB.
Proof. split; vm_compute; reflexivity. Qed.

(** Clearing a generic constraint that uses more than sixteen fields reads past
    the end. *)
Theorem clear_generic_refuted : clear_impulses generic_full = UB.
Proof. vm_compute. reflexivity. Qed.

(** Clearing a hinge leaves the impulse of a bump stop that is not engaged; when
    it engages in the next step, the old impulse is applied. *)
Definition bump_hinge : con QN :=
  @Con QN (KHinge (@HingeCfg QN (qn (-4)) (qn 4) (qn 1) (qn 1) (qn 0) (qn 0) (qn 0) (qn 0) (qn 0)))
       [qn 1; qn 1; qn 1; qn 1; qn 1; qn 1; qn 9; qn 1; qn 1] 2 3.
Definition turned : geo QN :=
  @Geo QN (g_J gh) (λ _, qn 0) (λ _, qn 0) (λ _, qn 0) (λ _, qf (7 # 2)) true.
Theorem clear_bump_stop_refuted :
  match clear_impulses bump_hinge with
  | Ok c => match prepare (c_cfg c) (c_imp c) (qn 1) turned (bod 2) (bod 3) with
            | Ok (_, qs) => map fr (row_values qs) | _ => [] end
  | _ => [] end = [0; 0; 0; 0; 0; 0; 9].
Proof. vm_compute. reflexivity. Qed.

(** The bending row of a cv-joint ignores its damping unless the twisting row
    is damped: with bending friction 1, damping 5 and relative speed 1 the limit
    is 1, or 6 when there is damping of the twist. *)
Definition cvq (tdamp : Z) : cv_cfg QN :=
  @CvCfg QN (qn 0) (qn 0) (qn 0) (qn 0) (qn 0) (qn 0) (qn 0) (qn 0) (qn tdamp) (qn 0) (qn 1) (qn 5).
Definition bending : geo QN :=
  @Geo QN (g_J gh) (λ _, qn 0) (λ _, qn 0) (λ _, qn 0) (λ _, qn 1) true.
Definition bend_limit (tdamp : Z) : option Q :=
  match prepare (KCv (cvq tdamp)) (replicate 9 (qn 0)) (qn 1) bending (bod 2) (bod 3) with
  | Ok (_, qs) => fr ∘ q_up <$> qs !! 4%nat
  | _ => None end.
Theorem bend_damping_ignored_refuted : bend_limit 0 = Some 1 ∧ bend_limit 1 = Some 6.
Proof. split; vm_compute; reflexivity. Qed.

(** ** A contact over the reals, meeting the hypotheses of
    [contact_impulses_bounded] (and, with the extras, the other one). *)
Definition rv (y : R) : vec RN := @Vec RN 0%R y 0%R.
Definition rgeo (e t : nat) : geo RN :=
  @Geo RN (λ i, @Jac RN (rv 2) (rv 0) (rv (-2)) (rv 0)) (λ _, 0%R) (λ _, 0%R) (λ _, 0%R) (λ _, 0%R) true.
Definition rbod (i : nat) : body RN := @Body RN (Some i) 1%R (@mzero RN) (rv (-1)) (rv 0).
Definition rcontact : con RN :=
  @Con RN (KContact (@ContactCfg RN 0%R 1%R)) [0%R; 0%R; 0%R] 1 2.
Definition rcs : consmap RN := {[ (5, 8)%nat := rcontact ]}.
Lemma rcontact_prepared :
  ∃ q, prepared (N:=RN) 1%R rgeo rbod (5, 8)%nat rcontact = Ok (c_cfg rcontact, [q]).
Proof.
  unfold prepared, prepare. cbn [c_cfg rcontact c_imp c_a c_b fst snd]. unfold prep_contact.
  assert (nltb (n:=RN) neps (dot (j0 (g_J (rgeo 5 8) 0)) (j0 (g_J (rgeo 5 8) 0))) = true) as ->.
  { cbn. apply r_ltb_true. cbn. lra. }
  cbn [assert_ mbind res_bind map]. by eexists.
Qed.
Example rcontact_fits : island_fits (N:=RN) [5]%nat 1%R rgeo rbod rcs.
Proof.
  destruct rcontact_prepared as (q & Hq). unfold rcs. split; [|split].
  - apply NoDup_singleton.
  - intros e t c _ Hc. apply lookup_singleton_Some in Hc as [[= <- <-] <-].
    split; [unfold num_kinds; lia|]. split; [done|]. split; [done|]. split; [by eauto|done].
  - intros e ->%elem_of_list_singleton. 
    assert (entity_cons (N:=RN) {[(5, 8)%nat := rcontact]} 5 = [(8%nat, rcontact)]) as Ee by reflexivity.
    split; rewrite Ee; [cbn; lia|]. cbn [map fst snd concat]. unfold elems_of. rewrite Hq. cbn. lia.
Qed.

Print Assumptions impulses_come_back.
Print Assumptions rows_keep_their_constraint.
Print Assumptions same_number_of_values.
Print Assumptions rows_within_limits.
Print Assumptions friction_within_limits.
Print Assumptions contact_impulses_bounded.
Print Assumptions contact_extras_impulses_bounded.
Print Assumptions joint_impulses_bounded.
Print Assumptions hinge_friction_bounded.
Print Assumptions velocities_match_impulses.
Print Assumptions momentum_conserved.
Print Assumptions fixed_bodies_stay.
Print Assumptions solved_row_complementary.
Print Assumptions lone_row_converges.
Print Assumptions cleared_starts_from_zero.
Print Assumptions limits_without_iterations_refuted.
Print Assumptions inverted_limits_refuted.
Print Assumptions point_friction_at_rest_refuted.
Print Assumptions generic_rows_overflow_refuted.
Print Assumptions ninth_constraint_refuted.
Print Assumptions clear_generic_refuted.
Print Assumptions clear_bump_stop_refuted.
Print Assumptions bend_damping_ignored_refuted.

(** Momentum: every row of every constraint. *)
From Verif Require Import Outcome BoxModel GeoModel RotSpec RotProofs SupProofs ColProofs JacModel JacSpec.
From Verif Require RowModel JointModel.
From Coq Require Import Reals Lra Psatz.
Local Open Scope R_scope.

Ltac vc := unfold cross3, vec0, axis_vec, ex, ey, ez; vec; ring.

Lemma of_rv v : of_vec (rv v) = v.
Proof. by destruct v. Qed.
Lemma of_rj J : of_jac (rj J) = J.
Proof. destruct J. unfold of_jac, rj. cbn. by rewrite !of_rv. Qed.

(** The row of a pivot is a pull along a coordinate axis. *)
Lemma pivot_jac_pull j A B i :
  pivot_jac j A B i = jpull (arm_a j A) (arm_b j B) (mrow mid i).
Proof.
  unfold pivot_jac, jpull. destruct i as [|[|i]]; f_equal; cbn [mrow mid skew r0 r1 r2];
    apply v3_eq; unfold cross3, neg3, ex, ey, ez; cbn [vx vy vz]; ring.
Qed.

(** The Jacobians a request carries are among those of the geometric input;
    that of a spinning row is the angular part of the sixth. *)
Definition strip (J : jac) : jac := Jac vec0 (jb J) vec0 (jd J).
Definition extras (c : JointModel.config Rnum) : Prop :=
  match c with JointModel.KExtras _ _ => True | _ => False end.
Definition from_geo (c : JointModel.config Rnum) (g : JointModel.geo Rnum) (q : JointModel.req Rnum) : Prop :=
  ∀ J, J ∈ row_jacs q →
    (∃ i, J = of_jac (JointModel.g_J g i)) ∨ extras c ∧ J = strip (of_jac (JointModel.g_J g 5)).
Lemma plain_from c g imps i lo up : from_geo c g (JointModel.plain g imps i lo up).
Proof.
  intros J HJ. cbn in HJ. apply elem_of_list_singleton in HJ. left. by exists i.
Qed.
Lemma limit_from c g imps i lo up x : from_geo c g (JointModel.limit_row g imps i lo up x).
Proof. unfold JointModel.limit_row. destruct (RowModel.nltb _ _); apply plain_from. Qed.
Lemma when_from c g b (l : list (JointModel.req Rnum)) :
  Forall (from_geo c g) l → Forall (from_geo c g) (JointModel.when b l).
Proof. destruct b; cbn; auto. Qed.
Ltac from_rows :=
  repeat first
    [ apply Forall_app; split | apply Forall_cons; split | apply Forall_nil; done
    | apply when_from | apply plain_from | apply limit_from
    | match goal with |- from_geo _ _ (if ?b then _ else _) => destruct b end ].
Lemma dof_from c g d i imps dt qs :
  JointModel.prep_dof d i imps dt g = Ok qs → Forall (from_geo c g) qs.
Proof.
  unfold JointModel.prep_dof. intros H. apply bind_ok in H as (? & _ & H).
  injection H as <-. unfold JointModel.spring_row, JointModel.sym_row. from_rows.
Qed.
Lemma contact_from c g o imps A B q : JointModel.prep_contact o imps g A B = Ok q → from_geo c g q.
Proof.
  unfold JointModel.prep_contact. intros H. apply bind_ok in H as (? & _ & H). injection H as <-.
  intros J HJ. cbn in HJ. left.
  repeat (apply elem_of_cons in HJ as [->|HJ]; [by eexists|]). by apply elem_of_nil in HJ.
Qed.
Lemma prepare_from c imps dt g A B c' qs :
  JointModel.prepare c imps dt g A B = Ok (c', qs) → Forall (from_geo c g) qs.
Proof.
  destruct c; cbn [JointModel.prepare]; intros H.
  - injection H as <- <-. unfold JointModel.prep_gravity, JointModel.sym_row. from_rows.
  - injection H as <- <-. unfold JointModel.prep_distance, JointModel.sym_row. from_rows.
  - injection H as <- <-. unfold JointModel.prep_soft, JointModel.sym_row. from_rows.
  - unfold JointModel.prep_hinge in H. injection H as <- <-.
    unfold JointModel.sym_row, JointModel.spring_row. from_rows.
  - apply bind_ok in H as (qs' & H & Heq). injection Heq as <- <-.
    unfold JointModel.prep_generic in H.
    apply bind_ok in H as (q0 & H0 & H). apply bind_ok in H as (q1 & H1 & H).
    apply bind_ok in H as (q2 & H2 & H). apply bind_ok in H as (q3 & H3 & H).
    apply bind_ok in H as (q4 & H4 & H). apply bind_ok in H as (q5 & H5 & H).
    injection H as <-. rewrite !Forall_app. repeat split; by eapply dof_from.
  - unfold JointModel.prep_cv in H. injection H as <- <-.
    unfold JointModel.sym_row, JointModel.spring_row. from_rows.
  - injection H as <- <-. unfold JointModel.prep_cone. from_rows.
  - injection H as <- <-. unfold JointModel.prep_point, JointModel.sym_row. from_rows.
  - apply bind_ok in H as (q & H & Heq). injection Heq as <- <-.
    apply Forall_singleton. by eapply contact_from.
  - apply bind_ok in H as (q & H & Heq). injection Heq as <- <-. apply Forall_singleton.
    unfold JointModel.prep_extras in H. apply bind_ok in H as (q' & H' & H).
    apply bind_ok in H as (sp & Hsp & H). injection H as <-.
    apply (contact_from (JointModel.KExtras c x)) in H'. intros J HJ. unfold row_jacs in HJ. cbn in HJ.
    apply elem_of_cons in HJ as [->|HJ]; [apply H'; by left|].
    apply elem_of_app in HJ as [HJ|HJ].
    { apply H'. unfold row_jacs. right. apply elem_of_app. by left. }
    apply elem_of_app in HJ as [HJ|HJ].
    { destruct (rltb 0 _); cbn in HJ; [|by apply elem_of_nil in HJ]. left.
      repeat (apply elem_of_cons in HJ as [->|HJ]; [by eexists|]). by apply elem_of_nil in HJ. }
    right. split; [done|]. revert Hsp HJ. case_match; intros Hsp HJ.
    + apply bind_ok in Hsp as (? & _ & Hsp). injection Hsp as <-. cbn in HJ.
      by apply elem_of_list_singleton in HJ.
    + injection Hsp as <-. cbn in HJ. by apply elem_of_nil in HJ.
Qed.

(** A property of Jacobians holds of all rows. *)
Lemma pick_prop {X} (P : X → Prop) i xs d : Forall P xs → P d → P (pick i xs d).
Proof.
  intros H Hd. unfold pick. destruct (nth_in_or_default i xs d) as [Hi| ->]; [|done].
  rewrite Forall_forall in H. apply H. by apply elem_of_list_In.
Qed.
Lemma geo_jac Js errs erps e ss sp i : of_jac (JointModel.g_J (geo_ Js errs erps e ss sp) i) = pick i Js jzero.
Proof. cbn. apply of_rj. Qed.
Lemma rows_prop (P : jac → Prop) c j imps dt pA pB A B c' qs q J :
  prepare_joint c j imps dt pA pB A B = Ok (c', qs) → q ∈ qs → J ∈ row_jacs q →
  P jzero →
  (∀ g, geo_of c j dt A B = Ok g →
     (∀ i, P (of_jac (JointModel.g_J g i))) ∧ (extras c → P (strip (of_jac (JointModel.g_J g 5))))) →
  P J.
Proof.
  unfold prepare_joint. intros H Hq HJ Hz Hg. apply bind_ok in H as (g & Hgo & H).
  destruct (Hg g Hgo) as [Hg1 Hg2].
  apply prepare_from in H. rewrite Forall_forall in H.
  destruct (H q Hq J HJ) as [[i ->]|[? ->]]; auto.
Qed.

(** * Action and reaction *)
Definition opposite (J : jac) : Prop := jc J = neg3 (ja J).
Definition balanced (pA pB : v3) (J : jac) : Prop :=
  opposite J ∧
  add3 (add3 (cross3 pA (ja J)) (jb J)) (add3 (cross3 pB (jc J)) (jd J)) = vec0.

Lemma mass_lin b m Ib imp (l : v3) :
  has_mass b m Ib → scl m (add3 (cb_lin b) (scl imp (scl (cb_im b) l))) = add3 (scl m (cb_lin b)) (scl imp l).
Proof.
  intros [Hm _]. apply v3_eq; unfold scl, add3; cbn [vx vy vz].
  - transitivity (m * vx (cb_lin b) + imp * ((m * cb_im b) * vx l)); [ring|]. rewrite Hm. ring.
  - transitivity (m * vy (cb_lin b) + imp * ((m * cb_im b) * vy l)); [ring|]. rewrite Hm. ring.
  - transitivity (m * vz (cb_lin b) + imp * ((m * cb_im b) * vz l)); [ring|]. rewrite Hm. ring.
Qed.
Lemma mvec_add m u v : mvec m (add3 u v) = add3 (mvec m u) (mvec m v).
Proof. apply v3_eq; unfold mvec, add3, dot3; cbn [vx vy vz]; ring. Qed.
Lemma mvec_scl m s v : mvec m (scl s v) = scl s (mvec m v).
Proof. apply v3_eq; unfold mvec, scl, dot3; cbn [vx vy vz]; ring. Qed.
Lemma mass_ang b m Ib imp (a : v3) :
  has_mass b m Ib →
  mvec Ib (add3 (cb_ang b) (scl imp (mvec (cb_I b) a))) = add3 (mvec Ib (cb_ang b)) (scl imp a).
Proof. intros [_ HI]. by rewrite mvec_add, mvec_scl, HI. Qed.

Lemma push_linear imp J A B mA IA mB IB :
  opposite J → has_mass A mA IA → has_mass B mB IB →
  add3 (linear_momentum (push imp J A B).1 mA) (linear_momentum (push imp J A B).2 mB)
  = add3 (linear_momentum A mA) (linear_momentum B mB).
Proof.
  intros HJ HA HB. unfold linear_momentum, push. cbn [fst snd cb_lin].
  rewrite (mass_lin _ _ _ _ _ HA), (mass_lin _ _ _ _ _ HB), HJ.
  apply v3_eq; unfold scl, add3, neg3; cbn [vx vy vz]; ring.
Qed.
(** How much a push changes the angular momentum. *)
Lemma push_angular_gen o imp J A B mA IA mB IB :
  opposite J → has_mass A mA IA → has_mass B mB IB →
  add3 (angular_momentum o (push imp J A B).1 mA IA) (angular_momentum o (push imp J A B).2 mB IB)
  = add3 (add3 (angular_momentum o A mA IA) (angular_momentum o B mB IB))
      (scl imp (add3 (add3 (cross3 (cb_pos A) (ja J)) (jb J)) (add3 (cross3 (cb_pos B) (jc J)) (jd J)))).
Proof.
  intros HJ HA HB. unfold angular_momentum, push. cbn [fst snd cb_lin cb_ang cb_pos].
  rewrite (mass_lin _ _ _ _ _ HA), (mass_lin _ _ _ _ _ HB), (mass_ang _ _ _ _ _ HA), (mass_ang _ _ _ _ _ HB).
  rewrite HJ. generalize (mvec IA (cb_ang A)) (mvec IB (cb_ang B)). intros a b.
  apply v3_eq; unfold cross3, sub3, scl, add3, neg3; cbn [vx vy vz]; ring.
Qed.
Lemma push_angular o imp J A B mA IA mB IB :
  balanced (cb_pos A) (cb_pos B) J → has_mass A mA IA → has_mass B mB IB →
  add3 (angular_momentum o (push imp J A B).1 mA IA) (angular_momentum o (push imp J A B).2 mB IB)
  = add3 (angular_momentum o A mA IA) (angular_momentum o B mB IB).
Proof.
  intros [HJ Hb] HA HB. rewrite (push_angular_gen _ _ _ _ _ _ _ _ _ HJ HA HB), Hb.
  apply v3_eq; unfold scl, add3, vec0; cbn [vx vy vz]; ring.
Qed.

Lemma opp_pull rA rB d : opposite (jpull rA rB d).
Proof. done. Qed.
Lemma neg_vec0 : neg3 vec0 = vec0.
Proof. apply v3_eq; unfold neg3, vec0; cbn; lra. Qed.
Lemma opp_turn a b : opposite (jturn a b).
Proof. unfold opposite. cbn. by rewrite neg_vec0. Qed.
Lemma opp_zero : opposite jzero.
Proof. unfold opposite. cbn. by rewrite neg_vec0. Qed.
Lemma opp_strip J : opposite (strip J).
Proof. unfold opposite. cbn. by rewrite neg_vec0. Qed.
Lemma opp_gravity A B : opposite (gravity_jac A B).
Proof. done. Qed.

(** The torque of a pull about the two pivots. *)
Lemma torque_pull pA pB xA xB (d : v3) :
  add3 (add3 (cross3 pA (ja (jpull (sub3 xA pA) (sub3 xB pB) d))) (jb (jpull (sub3 xA pA) (sub3 xB pB) d)))
       (add3 (cross3 pB (jc (jpull (sub3 xA pA) (sub3 xB pB) d))) (jd (jpull (sub3 xA pA) (sub3 xB pB) d)))
  = cross3 (sub3 xA xB) d.
Proof. apply v3_eq; unfold jpull, cross3, sub3, add3, neg3; cbn [ja jb jc jd vx vy vz]; ring. Qed.
Lemma balanced_pull pA pB xA xB d :
  cross3 (sub3 xA xB) d = vec0 → balanced pA pB (jpull (sub3 xA pA) (sub3 xB pB) d).
Proof. intros H. split; [done|]. by rewrite torque_pull. Qed.
Lemma balanced_turn pA pB a : balanced pA pB (jturn a a).
Proof.
  split; [apply opp_turn|]. apply v3_eq; unfold jturn, cross3, add3, neg3, vec0; cbn [ja jb jc jd vx vy vz]; ring.
Qed.
Lemma balanced_zero pA pB : balanced pA pB jzero.
Proof.
  split; [apply opp_zero|]. apply v3_eq; unfold jzero, cross3, add3, neg3, vec0; cbn [ja jb jc jd vx vy vz]; ring.
Qed.
Lemma cross_zero_l (x y d : v3) : x = y → cross3 (sub3 x y) d = vec0.
Proof. intros ->. apply v3_eq; unfold cross3, sub3, vec0; cbn; ring. Qed.
Lemma cross_self (d : v3) : cross3 d d = vec0.
Proof. apply v3_eq; unfold cross3, vec0; cbn; ring. Qed.
Lemma cross_self_scl s (d : v3) : cross3 d (scl s d) = vec0.
Proof. apply v3_eq; unfold cross3, scl, vec0; cbn; ring. Qed.
Lemma div3_scl (d : v3) l : div3 d l = scl (/ l) d.
Proof. apply v3_eq; unfold div3, scl, Rdiv; cbn; ring. Qed.
Lemma balanced_gravity A B : balanced (cb_pos A) (cb_pos B) (gravity_jac A B).
Proof.
  split; [done|]. unfold gravity_jac. cbn [ja jb jc jd]. rewrite div3_scl.
  generalize (/ sqrt (Rmax (lsq (sub3 (cb_pos A) (cb_pos B))) eps)). intros s.
  apply v3_eq; unfold cross3, sub3, scl, add3, neg3, vec0; cbn [vx vy vz]; ring.
Qed.

(** The cone: a pivot that lies on its own point of the cone. *)
Definition orthonormal (m : mat) : Prop := ∀ v, mvec m (vmat v m) = v.
Lemma cone_point_back (j : joint) (A B : cbody) :
  qlsq (cb_orn A) = 1 → orthonormal (jt_fa j) →
  to_world (to_world_m (cone_pivot j A B) (jt_pa j) (jt_fa j)) (cb_origin A) (cb_orn A) = pivot_b j B.
Proof.
  intros Hq Hm. unfold cone_pivot, to_world_m, to_object_m. rewrite Hm.
  set (x := to_object _ _ _). replace (add3 (jt_pa j) (sub3 x (jt_pa j))) with x.
  2: { apply v3_eq; unfold add3, sub3; cbn; ring. }
  subst x. unfold to_world, to_object. rewrite conj_inv' by done.
  apply v3_eq; unfold add3, sub3; cbn; ring.
Qed.

Lemma rows_opposite c j imps dt pA pB A B c' qs q J :
  prepare_joint c j imps dt pA pB A B = Ok (c', qs) → q ∈ qs → J ∈ row_jacs q → opposite J.
Proof.
  intros H Hq HJ. apply (rows_prop opposite _ _ _ _ _ _ _ _ _ _ _ _ H Hq HJ opp_zero).
  intros g Hg. split; [|intros _; apply opp_strip].
  assert (∃ Js errs erps e ss sp, g = geo_ Js errs erps e ss sp ∧ Forall opposite Js) as (Js&errs&erps&e&ss&sp&->&HF).
  { destruct c; cbn [geo_of] in Hg.
    - injection Hg as <-. do 6 eexists. split; [done|]. repeat apply Forall_cons_2; auto using opp_pull, opp_gravity; apply opp_pull.
    - injection Hg as <-. do 6 eexists. split; [done|]. repeat apply Forall_cons_2; auto using opp_pull, opp_gravity; apply opp_pull.
    - injection Hg as <-. do 6 eexists. split; [done|]. repeat apply Forall_cons_2; auto using opp_pull, opp_gravity; apply opp_pull.
    - injection Hg as <-. do 6 eexists. split; [done|]. rewrite !pivot_jac_pull.
      repeat apply Forall_cons_2; auto using opp_pull, opp_turn; first [apply opp_pull | apply opp_turn].
    - apply bind_ok in Hg as (tw & _ & Hg). injection Hg as <-. do 6 eexists. split; [done|].
      repeat apply Forall_cons_2; auto using opp_pull, opp_turn; first [apply opp_pull | apply opp_turn].
    - apply bind_ok in Hg as (tw & _ & Hg). injection Hg as <-. do 6 eexists. split; [done|].
      rewrite !pivot_jac_pull. repeat apply Forall_cons_2; auto using opp_pull, opp_turn; first [apply opp_pull | apply opp_turn].
    - apply bind_ok in Hg as ([err J'] & HJ' & Hg). injection Hg as <-. do 6 eexists. split; [done|].
      assert (opposite J').
      { apply bind_ok in HJ' as ([[a b] n] & _ & HJ'). injection HJ' as <- <-. done. }
      repeat apply Forall_cons_2; auto.
    - injection Hg as <-. do 6 eexists. split; [done|]. rewrite !pivot_jac_pull.
      repeat apply Forall_cons_2; auto using opp_pull, opp_turn; first [apply opp_pull | apply opp_turn].
    - injection Hg as <-. do 6 eexists. split; [done|]. repeat apply Forall_cons_2; auto using opp_pull, opp_gravity; apply opp_pull.
    - injection Hg as <-. do 6 eexists. split; [done|].
      repeat apply Forall_cons_2; auto using opp_pull, opp_turn; first [apply opp_pull | apply opp_turn]. }
  intros i. rewrite geo_jac. apply pick_prop; [done|apply opp_zero].
Qed.

Lemma balanced_pivots (j : joint) A B d :
  pivot_a j A = pivot_b j B → balanced (cb_pos A) (cb_pos B) (jpull (arm_a j A) (arm_b j B) d).
Proof. intros H. unfold arm_a, arm_b. apply balanced_pull. by apply cross_zero_l. Qed.
Lemma strip_turn a b : strip (jturn a b) = jturn a b.
Proof. done. Qed.

Lemma rows_balanced c j imps dt pA pB A B c' qs q J :
  in_line c j A B →
  prepare_joint c j imps dt pA pB A B = Ok (c', qs) → q ∈ qs → J ∈ row_jacs q →
  balanced (cb_pos A) (cb_pos B) J.
Proof.
  intros Hl H Hq HJ.
  apply (rows_prop (balanced (cb_pos A) (cb_pos B)) _ _ _ _ _ _ _ _ _ _ _ _ H Hq HJ (balanced_zero _ _)).
  intros g Hg.
  assert (∃ Js errs erps e ss sp, g = geo_ Js errs erps e ss sp ∧
            Forall (balanced (cb_pos A) (cb_pos B)) Js ∧ (extras c → strip (pick 5 Js jzero) = pick 5 Js jzero))
    as (Js&errs&erps&e&ss&sp&->&HF&Hs).
  { destruct c; cbn [geo_of in_line] in Hg, Hl.
    - injection Hg as <-. do 6 eexists. split; [done|]. split; [|done].
      repeat constructor; apply balanced_gravity.
    - injection Hg as <-. do 6 eexists. split; [done|]. split; [|done].
      apply Forall_singleton. unfold distance_jac. destruct Hl as [Hl|Hl]; [by apply balanced_pivots|].
      unfold dsq in Hl. apply rltb_true in Hl. rewrite Hl. apply balanced_pull. apply cross_self.
    - injection Hg as <-. do 6 eexists. split; [done|]. split; [|done].
      assert (balanced (cb_pos A) (cb_pos B) (soft_jac j A B)) as Hb; [|by repeat apply Forall_cons_2].
      unfold soft_jac. destruct Hl as [Hl|Hl]; [by apply balanced_pivots|].
      unfold dsq in Hl. apply rltb_true in Hl. rewrite Hl. apply balanced_pull.
      rewrite div3_scl. apply cross_self_scl.
    - injection Hg as <-. do 6 eexists. split; [done|]. split; [|done]. rewrite !pivot_jac_pull.
      repeat apply Forall_cons_2; auto using balanced_pivots, balanced_turn; apply balanced_turn.
    - destruct Hl as [Hp Ha].
      apply bind_ok in Hg as (tw & _ & Hg). injection Hg as <-. do 6 eexists. split; [done|].
      unfold linear_jac. rewrite Ha. split.
      + repeat apply Forall_cons_2; auto using balanced_pivots, balanced_turn; apply balanced_turn.
      + done.
    - destruct Hl as [Hp Ha].
      apply bind_ok in Hg as (tw & _ & Hg). injection Hg as <-. do 6 eexists. split; [done|].
      rewrite Ha, !pivot_jac_pull. split; [|done].
      repeat apply Forall_cons_2; auto using balanced_pivots, balanced_turn; apply balanced_turn.
    - destruct Hl as (Hq1 & Hm & n & Hn).
      apply bind_ok in Hg as ([err J'] & HJ' & Hg). injection Hg as <-. do 6 eexists. split; [done|].
      split; [|done].
      assert (balanced (cb_pos A) (cb_pos B) J').
      { apply bind_ok in HJ' as ([[a b] n'] & Hc & HJ'). injection HJ' as <- <-.
        rewrite Hn in Hc. injection Hc as <- <- <-. rewrite (cone_point_back j A B Hq1 Hm).
        unfold arm_b. apply balanced_pull. by apply cross_zero_l. }
      by repeat apply Forall_cons_2.
    - injection Hg as <-. do 6 eexists. split; [done|]. split; [|done]. rewrite !pivot_jac_pull.
      repeat apply Forall_cons_2; auto using balanced_pivots, balanced_turn; apply balanced_turn.
    - injection Hg as <-. do 6 eexists. split; [done|]. split; [|done]. unfold contact_jac.
      repeat apply Forall_cons_2; auto using balanced_pivots, balanced_turn; apply balanced_turn.
    - injection Hg as <-. do 6 eexists. split; [done|]. split; [|done]. unfold contact_jac.
      repeat apply Forall_cons_2; auto using balanced_pivots, balanced_turn. }
  split.
  - intros i. rewrite geo_jac. apply pick_prop; [done|apply balanced_zero].
  - intros Hx. rewrite geo_jac, (Hs Hx). apply pick_prop; [done|apply balanced_zero].
Qed.

(** Joints whose pivots have come apart: what they add. *)
Definition gap_torque (gap pA pB : v3) (J : jac) : Prop :=
  opposite J ∧
  add3 (add3 (cross3 pA (ja J)) (jb J)) (add3 (cross3 pB (jc J)) (jd J)) = cross3 gap (ja J).
Lemma gap_pull (j : joint) A B d :
  gap_torque (sub3 (pivot_a j A) (pivot_b j B)) (cb_pos A) (cb_pos B) (jpull (arm_a j A) (arm_b j B) d).
Proof. split; [done|]. unfold arm_a, arm_b. by rewrite torque_pull. Qed.
Lemma gap_turn g pA pB a : gap_torque g pA pB (jturn a a).
Proof.
  split; [apply opp_turn|].
  apply v3_eq; unfold jturn, cross3, add3, neg3, vec0; cbn [ja jb jc jd vx vy vz]; ring.
Qed.
Lemma gap_zero g pA pB : gap_torque g pA pB jzero.
Proof.
  split; [apply opp_zero|].
  apply v3_eq; unfold jzero, cross3, add3, neg3, vec0; cbn [ja jb jc jd vx vy vz]; ring.
Qed.
Definition pivoted (c : JointModel.config Rnum) (j : joint) (A B : cbody) : Prop :=
  match c with
  | JointModel.KHinge _ | JointModel.KPoint _ | JointModel.KContact _ | JointModel.KExtras _ _ => True
  | JointModel.KGeneric _ _ _ _ _ _ | JointModel.KCv _ => axis_a j A = axis_b j B
  | _ => False
  end.
Lemma rows_gap c j imps dt pA pB A B c' qs q J :
  pivoted c j A B →
  prepare_joint c j imps dt pA pB A B = Ok (c', qs) → q ∈ qs → J ∈ row_jacs q →
  gap_torque (sub3 (pivot_a j A) (pivot_b j B)) (cb_pos A) (cb_pos B) J.
Proof.
  intros Hl H Hq HJ. set (P := gap_torque (sub3 (pivot_a j A) (pivot_b j B)) (cb_pos A) (cb_pos B)).
  apply (rows_prop P _ _ _ _ _ _ _ _ _ _ _ _ H Hq HJ (gap_zero _ _ _)).
  intros g Hg.
  assert (∃ Js errs erps e ss sp, g = geo_ Js errs erps e ss sp ∧
            Forall P Js ∧ (extras c → strip (pick 5 Js jzero) = pick 5 Js jzero))
    as (Js&errs&erps&e&ss&sp&->&HF&Hs).
  { subst P. destruct c; cbn [geo_of pivoted] in Hg, Hl; try done.
    - injection Hg as <-. do 6 eexists. split; [done|]. split; [|done]. rewrite !pivot_jac_pull.
      repeat apply Forall_cons_2; auto using gap_pull, gap_turn; apply gap_turn.
    - apply bind_ok in Hg as (tw & _ & Hg). injection Hg as <-. do 6 eexists. split; [done|].
      unfold linear_jac. rewrite Hl. split; [|done].
      repeat apply Forall_cons_2; auto using gap_pull, gap_turn; apply gap_turn.
    - apply bind_ok in Hg as (tw & _ & Hg). injection Hg as <-. do 6 eexists. split; [done|].
      rewrite Hl, !pivot_jac_pull. split; [|done].
      repeat apply Forall_cons_2; auto using gap_pull, gap_turn; apply gap_turn.
    - injection Hg as <-. do 6 eexists. split; [done|]. split; [|done]. rewrite !pivot_jac_pull.
      repeat apply Forall_cons_2; auto using gap_pull, gap_turn; apply gap_turn.
    - injection Hg as <-. do 6 eexists. split; [done|]. split; [|done]. unfold contact_jac.
      repeat apply Forall_cons_2; auto using gap_pull, gap_turn; apply gap_turn.
    - injection Hg as <-. do 6 eexists. split; [done|]. split; [|done]. unfold contact_jac.
      repeat apply Forall_cons_2; auto using gap_pull, gap_turn; apply gap_turn. }
  split.
  - intros i. rewrite geo_jac. apply pick_prop; [done|apply gap_zero].
  - intros Hx. rewrite geo_jac, (Hs Hx). apply pick_prop; [done|apply gap_zero].
Qed.

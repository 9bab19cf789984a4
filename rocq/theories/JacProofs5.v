(** The rows of each constraint type, as they come out of [prepare]. *)
From Verif Require Import Outcome BoxModel GeoModel RotSpec RotProofs RotProofs3 SupProofs JacModel JacSpec.
From Verif Require Import JacProofs JacProofs2 JacProofs3.
From Verif Require RowModel JointModel.
From Coq Require Import Reals Lra Psatz.
Local Open Scope R_scope.

Notation qJ q := (of_jac (JointModel.q_J q)).

Lemma gravity_rows j imps dt pA pB A B c' qs q :
  prepare_joint JointModel.KGravity j imps dt pA pB A B = Ok (c', qs) → q ∈ qs → qJ q = gravity_jac A B.
Proof.
  intros H Hq. cbn in H. injection H as _ <-. apply elem_of_list_singleton in Hq as ->.
  cbn [JointModel.q_J JointModel.sym_row JointModel.plain]. apply of_rj.
Qed.
Lemma distance_rows j imps dt pA pB A B c' qs q :
  prepare_joint JointModel.KDistance j imps dt pA pB A B = Ok (c', qs) → q ∈ qs →
  qJ q = distance_jac j A B ∧
  JointModel.q_err q = 1 / 2 * (dsq (pivot_a j A) (pivot_b j B) - jt_dist j * jt_dist j) / dt ∧
  JointModel.q_erp q = 1 / 5.
Proof.
  intros H Hq. cbn in H. injection H as _ <-. apply elem_of_list_singleton in Hq as ->.
  cbn [JointModel.q_J JointModel.sym_row JointModel.plain]. split; [apply of_rj|]. split; [done|].
  cbn. unfold default_erp. lra.
Qed.
Lemma soft_rows a b c j imps dt pA pB A B c' qs q :
  prepare_joint (JointModel.KSoft a b c) j imps dt pA pB A B = Ok (c', qs) → q ∈ qs → qJ q = soft_jac j A B.
Proof.
  intros H Hq. cbn in H. injection H as _ <-.
  apply elem_of_cons in Hq as [->|Hq]; [cbn [JointModel.q_J JointModel.plain]; apply of_rj|].
  apply elem_of_list_singleton in Hq as ->. cbn [JointModel.q_J JointModel.sym_row JointModel.plain]. apply of_rj.
Qed.
Lemma when_in {X} b (l : list X) x : x ∈ JointModel.when b l ↔ b = true ∧ x ∈ l.
Proof.
  destruct b; cbn; [tauto|]. split; [|by intros [? _]]. intros H. by apply elem_of_nil in H.
Qed.
Lemma limit_J (g : JointModel.geo Rnum) imps i lo up x : JointModel.q_J (JointModel.limit_row g imps i lo up x) = JointModel.g_J g i.
Proof. unfold JointModel.limit_row. by destruct (RowModel.nltb _ _). Qed.
Lemma prep_hinge_J (h : JointModel.hinge_cfg Rnum) imps dt g i q :
  (JointModel.prep_hinge h imps dt g).2 !! i = Some q →
  JointModel.q_J q = JointModel.g_J g i ∨ (5 <= i)%nat ∧ ∃ k, (5 <= k <= 8)%nat ∧ JointModel.q_J q = JointModel.g_J g k.
Proof.
  unfold JointModel.prep_hinge. cbv zeta. cbn [snd].
  set (h' := if _ : bool then _ else _). clearbody h'. intros Hi.
  destruct i as [|[|[|[|[|i]]]]].
  1-5: left; cbn in Hi; by injection Hi as <-.
  right. split; [lia|]. cbn [app lookup list_lookup] in Hi. apply elem_of_list_lookup_2 in Hi.
  rewrite !elem_of_app, !when_in, elem_of_cons, when_in, !elem_of_list_singleton in Hi.
  destruct Hi as [(_ & [->|(_ & ->)])|[(_ & ->)|(_ & ->)]].
  - exists 5%nat. split; [lia|]. apply limit_J.
  - exists 6%nat. split; [lia|done].
  - exists 7%nat. split; [lia|done].
  - exists 8%nat. split; [lia|done].
Qed.
Lemma hinge_prepared h j imps dt pA pB A B c' qs :
  prepare_joint (JointModel.KHinge h) j imps dt pA pB A B = Ok (c', qs) →
  ∃ h', JointModel.prep_hinge h imps dt (geo_hinge h j dt A B) = (h', qs) ∧ c' = JointModel.KHinge h'.
Proof.
  unfold prepare_joint. cbn [geo_of mbind res_bind]. unfold JointModel.prepare.
  destruct (JointModel.prep_hinge _ _ _ _) as [h' l]. intros H. injection H as <- <-. by exists h'.
Qed.
Lemma hinge_rows h j imps dt pA pB A B c' qs i q :
  prepare_joint (JointModel.KHinge h) j imps dt pA pB A B = Ok (c', qs) → qs !! i = Some q →
  qJ q = match i with
         | 0 | 1 | 2 => pivot_jac j A B i
         | 3 => jturn (hinge_p j A) (hinge_p j A)
         | 4 => jturn (hinge_q j A) (hinge_q j A)
         | _ => jturn (axis_a j A) (axis_a j A)
         end%nat.
Proof.
  intros H Hi. apply hinge_prepared in H as (h' & H & _).
  assert (E := f_equal snd H). cbn [snd] in E. rewrite <- E in Hi.
  assert (K : ∀ k, (5 <= k <= 8)%nat →
    of_jac (JointModel.g_J (geo_hinge h j dt A B) k) = jturn (axis_a j A) (axis_a j A)).
  { intros k Hk. unfold geo_hinge. cbv zeta. rewrite geo_jac.
    assert (k = 5 ∨ k = 6 ∨ k = 7 ∨ k = 8)%nat as [->|[->|[->| ->]]] by lia; done. }
  pose proof Hi as Hi'. apply prep_hinge_J in Hi as [Hi|(Hl & k & Hk & Hi)].
  - rewrite Hi. destruct i as [|[|[|[|[|i]]]]].
    1-5: unfold geo_hinge; cbv zeta; by rewrite geo_jac.
    destruct (decide (S (S (S (S (S i)))) <= 8)%nat) as [Hd|Hd]; [apply K; lia|].
    exfalso. apply lookup_lt_Some in Hi'.
    assert (length (JointModel.prep_hinge h imps dt (geo_hinge h j dt A B)).2 <= 9)%nat; [|lia].
    unfold JointModel.prep_hinge. cbv zeta. cbn [snd]. rewrite !app_length.
    destruct (JointModel.h_has_limit h), (JointModel.h_has_spring h), (JointModel.h_has_torque h);
      cbn [JointModel.when length]; try (destruct (_ && _); cbn [JointModel.when length]); lia.
  - rewrite Hi, (K k Hk). destruct i as [|[|[|[|[|i]]]]]; try lia. done.
Qed.
Lemma prep_point_rows tq imps dt (g : JointModel.geo Rnum) i q :
  JointModel.prep_point tq imps dt g !! i = Some q → (i < 3)%nat →
  JointModel.q_J q = JointModel.g_J g i ∧ JointModel.q_err q = JointModel.g_err g i ∧ JointModel.q_erp q = JointModel.g_erp g i.
Proof. intros Hi Hl. destruct i as [|[|[|i]]]; [| | |lia]; cbn in Hi; by injection Hi as <-. Qed.
Lemma point_rows tq j imps dt pA pB A B c' qs i q :
  prepare_joint (JointModel.KPoint tq) j imps dt pA pB A B = Ok (c', qs) → qs !! i = Some q → (i < 3)%nat →
  qJ q = pivot_jac j A B i ∧
  JointModel.q_err q = dot3 (sub3 (pivot_a j A) (pivot_b j B)) (mrow mid i) / dt ∧ JointModel.q_erp q = 1 / 5.
Proof.
  intros H Hi Hl. unfold prepare_joint in H. apply bind_ok in H as (g & Hg & H).
  unfold JointModel.prepare in H. injection H as _ <-.
  apply (prep_point_rows _ _ _ _ _ _ Hi) in Hl as Hr. destruct Hr as (-> & -> & ->).
  cbn [geo_of] in Hg.
  match type of Hg with Ok ?x = _ => assert (g = x) as -> by congruence end.
  rewrite geo_jac. cbn [JointModel.g_err JointModel.g_erp geo_].
  generalize (sub3 (pivot_a j A) (pivot_b j B)). intros d.
  destruct i as [|[|[|i]]]; [| | |lia]; cbn [pick nth]; (split; [done|]); (split; [|unfold default_erp; lra]);
    unfold dot3, mid, ex, ey, ez, Rdiv; cbn [mrow r0 r1 r2 vx vy vz];
    match goal with |- @eq _ ?a ?b => change (@eq R a b) end; ring.
Qed.
Lemma contact_rows o j imps dt pA pB A B c' qs q :
  prepare_joint (JointModel.KContact o) j imps dt pA pB A B = Ok (c', qs) → q ∈ qs →
  row_jacs q = [contact_jac j A B 0; contact_jac j A B 1; contact_jac j A B 2] ∧
  JointModel.q_erp q = 1 / 5 ∧
  JointModel.q_err q = (if Rlt_dec 0 (JointModel.o_dist o) then JointModel.o_dist o / dt else 0).
Proof.
  intros H Hq. unfold prepare_joint in H. cbn [geo_of] in H. cbn [mbind res_bind] in H.
  unfold JointModel.prepare in H. apply bind_ok in H as (r & Hr & H). injection H as _ <-.
  apply elem_of_list_singleton in Hq as ->.
  unfold JointModel.prep_contact in Hr. apply bind_ok in Hr as (? & _ & Hr). injection Hr as <-.
  split; [|split].
  - unfold row_jacs. cbn [JointModel.q_J JointModel.q_fric JointModel.q_roll JointModel.q_spin fric_jacs spin_jacs
      RowModel.f_0 RowModel.f_1 JointModel.fric_dir RowModel.i_J app]. cbn [geo_ JointModel.g_J pick nth].
    by rewrite !of_rj.
  - cbn. unfold default_erp. lra.
  - cbn. pose proof (rltb_true 0 (JointModel.o_dist o)). pose proof (rltb_false 0 (JointModel.o_dist o)).
    destruct (rltb 0 (JointModel.o_dist o)), (Rlt_dec 0 (JointModel.o_dist o)); try done; exfalso.
    + assert (0 < JointModel.o_dist o) by tauto. done.
    + assert (JointModel.o_dist o <= 0) by tauto. lra.
Qed.

(** ** Rows with a goal *)
Lemma rltb_dec a b : rltb a b = if Rlt_dec a b then true else false.
Proof.
  destruct (Rlt_dec a b) as [H|H]; [by apply rltb_true|]. apply rltb_false. lra.
Qed.
Lemma limit_error_nearer lo up x : limit_error lo up x = nearer lo up x - x.
Proof.
  unfold limit_error, nearer. destruct (rltb x ((lo + up) / 2)) eqn:E; destruct (Rlt_dec x ((lo + up) / 2)) as [H|H]; try done.
  - apply rltb_true in E. lra.
  - apply rltb_false in E. lra.
Qed.
Lemma limit_one_way (g : JointModel.geo Rnum) imps i lo up x : one_way lo up x (JointModel.limit_row g imps i lo up x).
Proof.
  unfold JointModel.limit_row, one_way. cbn [Rnum RowModel.nltb RowModel.nadd RowModel.ndiv JointModel.two RowModel.n1].
  unfold JointModel.two. cbn [Rnum RowModel.nltb RowModel.nadd RowModel.ndiv RowModel.n1].
  replace (1 + 1) with 2 by ring.
  destruct (rltb x ((lo + up) / 2)) eqn:E.
  - apply rltb_true in E. left. done.
  - apply rltb_false in E. right. done.
Qed.
Lemma limit_err (g : JointModel.geo Rnum) imps i lo up x :
  JointModel.q_err (JointModel.limit_row g imps i lo up x) = JointModel.g_err g i ∧
  JointModel.q_erp (JointModel.limit_row g imps i lo up x) = JointModel.g_erp g i.
Proof. unfold JointModel.limit_row. by destruct (RowModel.nltb _ _). Qed.
Lemma fmin_min a b : RowModel.fmin (N := Rnum) a b = Rmin a b.
Proof.
  unfold RowModel.fmin. cbn [Rnum RowModel.nltb]. destruct (rltb _ _) eqn:E.
  - apply rltb_true in E. rewrite Rmin_right; [done|]. lra.
  - apply rltb_false in E. by rewrite Rmin_left.
Qed.
Lemma fmax_max a b : RowModel.fmax (N := Rnum) a b = Rmax a b.
Proof.
  unfold RowModel.fmax. cbn [Rnum RowModel.nltb]. destruct (rltb _ _) eqn:E.
  - apply rltb_true in E. rewrite Rmax_right; [done|]. lra.
  - apply rltb_false in E. by rewrite Rmax_left.
Qed.
Lemma spring_ok (g : JointModel.geo Rnum) imps i p : spring_limits p (JointModel.spring_row g imps i p).
Proof. split; [apply fmin_min|apply fmax_max]. Qed.

Lemma hinge_goals h j imps dt pA pB A B c' qs :
  prepare_joint (JointModel.KHinge h) j imps dt pA pB A B = Ok (c', qs) → 0 < dt →
  let x := track_angle (JointModel.h_angle h) (hinge_angle j A B) in
  let lo := JointModel.h_min h in let up := JointModel.h_max h in
  (lo < up ∨ 0 < JointModel.h_stiff h → c' = JointModel.KHinge (JointModel.set_h_angle h x)) ∧
  (lo < up → ∃ q, q ∈ qs ∧ qJ q = jturn (axis_a j A) (axis_a j A) ∧
     dt * - row_target q = (nearer lo up x - x) / 5 ∧ one_way lo up x q) ∧
  (0 < JointModel.h_stiff h → ∃ q, q ∈ qs ∧ qJ q = jturn (axis_a j A) (axis_a j A) ∧
     dt * - row_target q = (JointModel.h_rest h - x) / 5 ∧
     spring_limits (JointModel.h_stiff h * (x - JointModel.h_rest h) * dt) q) ∧
  (0 < JointModel.h_torque h → ∃ q, q ∈ qs ∧ qJ q = jturn (axis_a j A) (axis_a j A) ∧
     row_target q = jt_speed j / 5 ∧
     JointModel.q_lo q = - JointModel.q_up q ∧
     JointModel.q_up q = JointModel.h_torque h * dt +
       (if Rlt_dec 0 (JointModel.h_damp h)
        then Rabs (relative_speed (jturn (axis_a j A) (axis_a j A)) A B) * JointModel.h_damp h * dt else 0)).
Proof.
  intros H Hdt x lo up. apply hinge_prepared in H as (h' & H & ->).
  set (g := geo_hinge h j dt A B) in *.
  assert (Eh := f_equal fst H). assert (Eq := f_equal snd H). cbn [fst snd] in Eh, Eq.
  unfold JointModel.prep_hinge in Eh, Eq. cbv zeta in Eh, Eq. cbn [fst snd] in Eh, Eq.
  assert (Hx : RowModel.nadd (n := Rnum) (JointModel.h_angle h) (JointModel.g_s g 0) = x) by done.
  rewrite Hx in Eh, Eq.
  assert (HL : lo < up → JointModel.h_has_limit h = true) by (intros; by apply rltb_true).
  assert (HS : 0 < JointModel.h_stiff h → JointModel.h_has_spring h = true) by (intros; by apply rltb_true).
  assert (HT : 0 < JointModel.h_torque h → JointModel.h_has_torque h = true).
  { intros. apply orb_true_intro. left. by apply rltb_true. }
  assert (GJ : ∀ k, (5 <= k <= 8)%nat → of_jac (JointModel.g_J g k) = jturn (axis_a j A) (axis_a j A)).
  { intros k Hk. subst g. unfold geo_hinge. cbv zeta. rewrite geo_jac.
    assert (k = 5 ∨ k = 6 ∨ k = 7 ∨ k = 8)%nat as [->|[->|[->| ->]]] by lia; done. }
  assert (GE : ∀ k, JointModel.g_erp g k = 1 / 5).
  { intros k. subst g. unfold geo_hinge. cbv zeta. cbn. destruct k; unfold default_erp; lra. }
  assert (E5 : JointModel.g_err g 5 = (nearer lo up x - x) / dt).
  { subst g. unfold geo_hinge. cbv zeta. cbn [geo_ JointModel.g_err pick nth]. by rewrite limit_error_nearer. }
  assert (E7 : JointModel.g_err g 7 = - (x - JointModel.h_rest h) / dt) by done.
  assert (E8 : JointModel.g_err g 8 = - jt_speed j) by done.
  assert (S1 : JointModel.g_s g 1 = relative_speed (jturn (axis_a j A) (axis_a j A)) A B).
  { rewrite turn_speed. cbn. unfold dot3. ring. }
  clearbody g.
  split; [|split; [|split]].
  - intros Hor. rewrite <- Eh. destruct Hor as [Hl|Hs]; [rewrite (HL Hl)|rewrite (HS Hs), orb_true_r]; done.
  - intros Hl. rewrite (HL Hl) in Eq. cbn [orb JointModel.when] in Eq.
    eexists (JointModel.limit_row g imps 5 lo up x). split; [|split; [|split]].
    + rewrite <- Eq. apply elem_of_app. right. apply elem_of_app. left. left.
    + rewrite limit_J. apply GJ. lia.
    + unfold row_target. destruct (limit_err g imps 5 lo up x) as [-> ->]. rewrite GE, E5. field. lra.
    + apply limit_one_way.
  - intros Hs. rewrite (HS Hs), orb_true_r in Eq. cbn [JointModel.when] in Eq.
    eexists (JointModel.spring_row g imps 7 (JointModel.h_stiff h * (x - JointModel.h_rest h) * dt)).
    split; [|split; [|split]].
    + rewrite <- Eq. do 2 (apply elem_of_app; right). apply elem_of_app. left. apply elem_of_list_singleton. done.
    + apply (GJ 7%nat). lia.
    + unfold row_target. cbn [JointModel.q_err JointModel.q_erp JointModel.spring_row JointModel.plain].
      rewrite GE, E7. field. lra.
    + apply spring_ok.
  - intros Ht. rewrite (HT Ht) in Eq. cbn [JointModel.when] in Eq.
    match type of Eq with _ ++ _ ++ _ ++ [?r] = _ => exists r end.
    split; [|split; [|split; [|split]]].
    + rewrite <- Eq. do 3 (apply elem_of_app; right). by apply elem_of_list_singleton.
    + apply (GJ 8%nat). lia.
    + unfold row_target. cbn [JointModel.q_err JointModel.q_erp JointModel.sym_row JointModel.plain].
      rewrite GE, E8. lra.
    + cbn [JointModel.q_lo JointModel.q_up JointModel.sym_row JointModel.plain]. done.
    + cbn [JointModel.q_up JointModel.sym_row JointModel.plain]. rewrite S1.
      set (h1 := if _ || _ then _ else _ : JointModel.hinge_cfg Rnum).
      assert (JointModel.h_damp h1 = JointModel.h_damp h ∧ JointModel.h_torque h1 = JointModel.h_torque h) as [-> ->].
      { subst h1. by destruct (_ || _). }
      cbn [Rnum RowModel.nltb RowModel.nadd RowModel.nmul RowModel.n0 RowModel.nt].
      assert (FA : ∀ a, RowModel.fabs (N := Rnum) a = Rabs a).
      { intros a. unfold RowModel.fabs. cbn [Rnum RowModel.nltb RowModel.n0 RowModel.nneg].
        destruct (rltb a 0) eqn:Ea; [apply rltb_true in Ea; by rewrite Rabs_left|].
        apply rltb_false in Ea. by rewrite Rabs_pos_eq. }
      rewrite FA. rewrite rltb_dec. destruct (Rlt_dec 0 (JointModel.h_damp h)) as [Hd|Hd].
      * done.
      * match goal with |- @eq _ ?a ?b => change (@eq R a b) end. ring.
Qed.

(** ** Generic constraints *)
Lemma dof_rows (d : JointModel.dof_cfg Rnum) i imps dt (g : JointModel.geo Rnum) qs :
  JointModel.prep_dof d i imps dt g = Ok qs →
  let x := JointModel.g_s g i in let lo := JointModel.d_min d in let up := JointModel.d_max d in
  (∀ q, q ∈ qs → ∃ k, (k < 4)%nat ∧ JointModel.q_J q = JointModel.g_J g (i + k)) ∧
  (JointModel.d_enabled d = true → lo < up → ∃ q, q ∈ qs ∧ JointModel.q_J q = JointModel.g_J g i ∧
     row_target q = - (JointModel.g_err g i * JointModel.g_erp g i) ∧ one_way lo up x q) ∧
  (JointModel.d_enabled d = true → lo = up → ∃ q, q ∈ qs ∧ JointModel.q_J q = JointModel.g_J g i ∧
     row_target q = - (JointModel.g_err g i * JointModel.g_erp g i) ∧
     JointModel.q_lo q = - large_scalar ∧ JointModel.q_up q = large_scalar) ∧
  (0 < JointModel.d_spring d → ∃ q, q ∈ qs ∧ JointModel.q_J q = JointModel.g_J g (i + 2) ∧
     row_target q = - (JointModel.g_err g (i + 2) * JointModel.g_erp g (i + 2)) ∧
     spring_limits (JointModel.d_spring d * (x - JointModel.d_rest d) * dt) q).
Proof.
  intros H x lo up. unfold JointModel.prep_dof in H. cbv zeta in H.
  apply bind_ok in H as (? & _ & H).
  match type of H with Ok ?l = _ => assert (qs = l) as Eqs by congruence end. clear H.
  split; [|split; [|split]].
  - intros q Hq. rewrite Eqs in Hq. rewrite !elem_of_app, !when_in, !elem_of_list_singleton in Hq.
    destruct Hq as [(_ & ->)|[(_ & ->)|[(_ & ->)|(_ & ->)]]].
    + exists 0%nat. split; [lia|]. rewrite Nat.add_0_r. destruct (JointModel.d_nonzero d); [apply limit_J|done].
    + exists 1%nat. split; [lia|done].
    + exists 2%nat. split; [lia|done].
    + exists 3%nat. split; [lia|done].
  - intros He Hl. exists (JointModel.limit_row g imps i lo up x).
    assert (Hn : JointModel.d_nonzero d = true) by by apply rltb_true.
    split; [|split; [|split]].
    + rewrite Eqs. apply elem_of_app. left. apply when_in. split; [done|]. rewrite Hn. by apply elem_of_list_singleton.
    + apply limit_J.
    + unfold row_target. by destruct (limit_err g imps i lo up x) as [-> ->].
    + apply limit_one_way.
  - intros He Hl. exists (JointModel.sym_row g imps i large_scalar).
    assert (Hn : JointModel.d_nonzero d = false). { apply rltb_false. subst lo up. lra. }
    split; [|split; [|split]]; try done.
    rewrite Eqs. apply elem_of_app. left. apply when_in. split; [done|]. rewrite Hn. by apply elem_of_list_singleton.
  - intros Hs. exists (JointModel.spring_row g imps (i + 2) (JointModel.d_spring d * (x - JointModel.d_rest d) * dt)).
    split; [|split; [|split]]; try done; [|apply spring_ok].
    rewrite Eqs. do 2 (apply elem_of_app; right). apply elem_of_app. left. apply when_in.
    split; [by apply rltb_true|]. by apply elem_of_list_singleton.
Qed.

Section generic.
Context (l0 l1 l2 a0 a1 a2 : JointModel.dof_cfg Rnum) (j : joint) (imps : list R) (dt : R)
  (pA pB : RowModel.ptr) (A B : cbody) (c' : JointModel.config Rnum) (qs : list (JointModel.req Rnum)).
Context (H : prepare_joint (JointModel.KGeneric l0 l1 l2 a0 a1 a2) j imps dt pA pB A B = Ok (c', qs)).
Context (Hdt : 0 < dt).
Notation dof_of := (dof_of l0 l1 l2 a0 a1 a2).
Notation dof_jac := (dof_jac j A B).
Notation dof_value := (dof_value j A B).

Lemma generic_split :
  ∃ twist g, twist_angle j A B = Ok twist ∧
    (∀ k i, (k < 6)%nat → (i < 4)%nat → of_jac (JointModel.g_J g (4 * k + i)) = dof_jac k) ∧
    (∀ k, (k < 6)%nat → JointModel.g_s g (4 * k) = dof_value twist k) ∧
    (∀ k, (k < 3)%nat → JointModel.g_erp g (4 * k) = (if JointModel.d_nonzero (dof_of k) then 9 / 10 else 1 / 5) ∧
       JointModel.g_err g (4 * k) = pick 0 (linear_errs (dof_of k) (dof_value twist k) dt) 0) ∧
    (∀ k, (3 <= k < 6)%nat → JointModel.g_erp g (4 * k) = 1 / 5 ∧
       JointModel.g_err g (4 * k) = pick 0 (angular_errs (dof_of k) (dof_value twist k) dt) 0) ∧
    (∀ k, (k < 6)%nat → JointModel.g_erp g (4 * k + 2) = 1 / 5 ∧
       JointModel.g_err g (4 * k + 2) = (JointModel.d_rest (dof_of k) - dof_value twist k) / dt) ∧
    ∀ k, (k < 6)%nat → ∃ rows, JointModel.prep_dof (dof_of k) (4 * k) imps dt g = Ok rows ∧ (∀ q, q ∈ rows → q ∈ qs).
Proof using H Hdt.
  clear -H Hdt. revert H. intros Hp. unfold prepare_joint in Hp. apply bind_ok in Hp as (g & Hg & Hp).
  cbn [geo_of] in Hg. unfold geo_generic in Hg. apply bind_ok in Hg as (tw & Htw & Hg).
  match type of Hg with Ok ?x = _ => assert (g = x) as Eg by congruence end. clear Hg.
  exists tw, g. split; [done|].
  assert (L : ∀ k, (k < 6)%nat → (k = 0 ∨ k = 1 ∨ k = 2 ∨ k = 3 ∨ k = 4 ∨ k = 5)%nat) by lia.
  split; [|split; [|split; [|split; [|split]]]].
  - intros k i Hk Hi. rewrite Eg, geo_jac.
    destruct (L k Hk) as [->|[->|[->|[->|[->| ->]]]]]; destruct i as [|[|[|[|i]]]]; try lia; reflexivity.
  - intros k Hk. rewrite Eg. destruct (L k Hk) as [->|[->|[->|[->|[->| ->]]]]]; reflexivity.
  - intros k Hk. rewrite Eg. split.
    + cbn [JointModel.g_erp geo_]. unfold linear_erps, default_erp.
      assert (k = 0 ∨ k = 1 ∨ k = 2)%nat as [->|[->| ->]] by lia; cbn [JacSpec.dof_of Nat.mul Nat.add app pick nth];
        destruct (JointModel.d_nonzero _); lra.
    + assert (k = 0 ∨ k = 1 ∨ k = 2)%nat as [->|[->| ->]] by lia; reflexivity.
  - intros k Hk. rewrite Eg. assert (k = 3 ∨ k = 4 ∨ k = 5)%nat as [->|[->| ->]] by lia;
      (split; [cbn [JointModel.g_erp geo_]; cbn [Nat.mul Nat.add app pick nth linear_erps]; unfold default_erp; lra|reflexivity]).
  - intros k Hk. rewrite Eg.
    destruct (L k Hk) as [->|[->|[->|[->|[->| ->]]]]];
      (split; [cbn [JointModel.g_erp geo_]; cbn [Nat.mul Nat.add app pick nth linear_erps]; unfold default_erp; lra|
               cbn [JointModel.g_err geo_]; cbn [Nat.mul Nat.add app pick nth linear_errs angular_errs JacSpec.dof_of];
               unfold Rdiv; match goal with |- @eq _ ?a ?b => change (@eq R a b) end;
               cbn [JacSpec.dof_value]; ring]).
  - clear Eg. unfold JointModel.prepare in Hp. apply bind_ok in Hp as (rows & Hr & Hp). injection Hp as _ <-.
    unfold JointModel.prep_generic in Hr.
    apply bind_ok in Hr as (x0 & H0 & Hr). apply bind_ok in Hr as (x1 & H1 & Hr).
    apply bind_ok in Hr as (x2 & H2 & Hr). apply bind_ok in Hr as (x3 & H3 & Hr).
    apply bind_ok in Hr as (x4 & H4 & Hr). apply bind_ok in Hr as (x5 & H5 & Hr).
    injection Hr as <-. intros k Hk. setoid_rewrite elem_of_app. setoid_rewrite elem_of_app.
    setoid_rewrite elem_of_app. setoid_rewrite elem_of_app. setoid_rewrite elem_of_app.
    destruct (L k Hk) as [->|[->|[->|[->|[->| ->]]]]]; eexists; (split; [eassumption|tauto]).
Qed.

Lemma generic_goals k :
  (k < 6)%nat →
  ∃ twist, twist_angle j A B = Ok twist ∧
  let x := dof_value twist k in let d := dof_of k in
  let lo := JointModel.d_min d in let up := JointModel.d_max d in
  (JointModel.d_enabled d = true → lo < up →
     ((k < 3)%nat → lo < x < up) →
     ∃ q, q ∈ qs ∧ qJ q = dof_jac k ∧
       dt * - row_target q = (if Nat.ltb k 3 then 9 / 10 else 1 / 5) * (nearer lo up x - x) ∧ one_way lo up x q) ∧
  (JointModel.d_enabled d = true → lo = up →
     ∃ q, q ∈ qs ∧ qJ q = dof_jac k ∧
       dt * - row_target q = (if Nat.ltb k 3 then 0 else (0 - x) / 5) ∧
       JointModel.q_lo q = - large_scalar ∧ JointModel.q_up q = large_scalar) ∧
  (0 < JointModel.d_spring d →
     ∃ q, q ∈ qs ∧ qJ q = dof_jac k ∧
       dt * - row_target q = (JointModel.d_rest d - x) / 5 ∧
       spring_limits (JointModel.d_spring d * (x - JointModel.d_rest d) * dt) q).
Proof using H Hdt.
  intros Hk. destruct generic_split as (tw & g & Htw & GJ & GS & GL & GA & GR & GP).
  exists tw. split; [done|]. cbv zeta.
  destruct (GP k Hk) as (rows & Hr & Hin). apply dof_rows in Hr as (_ & RL & RE & RS).
  rewrite (GS k Hk) in RL, RS. set (x := dof_value tw k) in *. set (d := dof_of k) in *.
  assert (J0 : of_jac (JointModel.g_J g (4 * k)) = dof_jac k).
  { rewrite <- (GJ k 0%nat Hk) by lia. by rewrite Nat.add_0_r. }
  split; [|split].
  - intros He Hl Hx. destruct (RL He Hl) as (q & Hq & HJ & Ht & Ho). exists q.
    split; [by apply Hin|]. split; [by rewrite HJ|]. split; [|done]. rewrite Ht.
    assert (Hn : JointModel.d_nonzero d = true) by by apply rltb_true.
    destruct (Nat.ltb k 3) eqn:E3.
    + apply Nat.ltb_lt in E3. destruct (GL k E3) as [-> ->]. fold d x. rewrite Hn.
      unfold linear_errs. cbv zeta. cbn [pick nth]. rewrite Hn. destruct (Hx E3) as [H1 H2].
      rewrite (proj2 (rltb_true _ _) H1), (proj2 (rltb_true _ _) H2). cbn [andb].
      rewrite limit_error_nearer. field. lra.
    + apply Nat.ltb_ge in E3. destruct (GA k) as [-> ->]; [lia|]. fold d x.
      unfold angular_errs. cbv zeta. cbn [pick nth]. rewrite Hn. rewrite limit_error_nearer. field. lra.
  - intros He Hl. destruct (RE He Hl) as (q & Hq & HJ & Ht & Ho). exists q.
    split; [by apply Hin|]. split; [by rewrite HJ|]. split; [|done]. rewrite Ht.
    assert (Hn : JointModel.d_nonzero d = false). { apply rltb_false. lra. }
    destruct (Nat.ltb k 3) eqn:E3.
    + apply Nat.ltb_lt in E3. destruct (GL k E3) as [-> ->]. fold d x. unfold linear_errs. cbv zeta. cbn [pick nth].
      rewrite Hn. cbn [andb]. field.
    + apply Nat.ltb_ge in E3. destruct (GA k) as [-> ->]; [lia|]. fold d x.
      unfold angular_errs. cbv zeta. cbn [pick nth]. rewrite Hn. field. lra.
  - intros Hs. destruct (RS Hs) as (q & Hq & HJ & Ht & Ho). exists q.
    split; [by apply Hin|]. split; [rewrite HJ; apply GJ; lia|]. split; [|done]. rewrite Ht.
    destruct (GR k Hk) as [-> ->]. fold d x. field. lra.
Qed.
End generic.

(** Model of how constraints become rows and how the impulses come back:
    [prepare] and [store_applied_impulses] of the ten constraint types
    (src/edyn/constraints/*.cpp), the preparation cache
    (include/edyn/dynamics/row_cache.hpp 58–181), [invoke_prepare_constraint]
    and [prepare_constraints] (src/edyn/dynamics/solver.cpp 83–222),
    [insert_rows], [pack_rows], [update_impulse] and [assign_applied_impulses]
    (src/edyn/dynamics/island_solver.cpp 113–248) and the sequential island
    solver up to the position iterations (521–536).

    The Jacobians and the other quantities computed from positions and
    orientations are not modelled: they are an arbitrary input [geo].  Which
    rows exist, in which order, with which limits, starting from which stored
    impulse, and what is read back into which field is modelled exactly. *)
From Verif Require Import Outcome RowModel.

Section model.
Context {N : num}.
Notation T := (nt N).

(** Mass, velocity and delta velocity pointers of one body, as collected in
    solver.cpp 94–148: a body that is not procedural has zero inverse mass and
    inertia and the dummy pointer, a static one zero velocity. *)
Record body := Body { b_ptr : ptr; b_im : T; b_I : mat N; b_v : vec N; b_w : vec N }.

(** Arbitrary geometric input of one [prepare] call.  Rows are numbered by the
    impulse field they start from (see [config]): [g_J i] is the Jacobian,
    [g_err i], [g_erp i], [g_rest i] the options of that row
    (constraint_row_options.hpp), [g_s i] the other scalars named where they
    are used, [g_spin] the result of [try_normalize(spin_axis)]. *)
Record geo := Geo {
  g_J : nat → jac N; g_err : nat → T; g_erp : nat → T; g_rest : nat → T;
  g_s : nat → T; g_spin : bool }.

(** Configuration fields that decide which rows a constraint has and their
    limits.  The impulse fields are kept apart, in a list; the numbers are
    - gravity, distance: 0 [applied_impulse];
    - soft distance: 0 [applied_spring_impulse], 1 [applied_damping_impulse];
    - hinge: 0–2 [linear], 3–4 [hinge], 5 [limit], 6 [bump_stop], 7 [spring],
      8 [torque];
    - generic: degree of freedom d (0–2 linear, 3–5 angular): 4d [limit],
      4d+1 [bump_stop], 4d+2 [spring], 4d+3 [friction_damping];
    - cv-joint: 0–2 [linear], 3 [twist_limit], 4 [twist_bump_stop],
      5 [twist_spring], 6 [twist_friction_damping], 7 [bend_friction_damping],
      8 [bend_spring];
    - cone: 0 [limit_impulse], 1 [bump_stop_impulse];
    - point: 0–2 [applied_impulse], 3 [applied_friction_impulse];
    - contact: 0 [applied_normal_impulse], 1–2 [applied_friction_impulse];
    - contact extras: as contact, then 3–4 [rolling_friction_impulse],
      5 [spin_friction_impulse]. *)
Record hinge_cfg := HingeCfg {
  h_min : T; h_max : T; h_bs_angle : T; h_bs_stiff : T;
  h_torque : T; h_rest : T; h_stiff : T; h_damp : T; h_angle : T }.
Record dof_cfg := DofCfg {
  d_enabled : bool; d_min : T; d_max : T; d_bs_len : T; d_bs_stiff : T;
  d_fric : T; d_rest : T; d_spring : T; d_damp : T }.
Record cv_cfg := CvCfg {
  v_min : T; v_max : T; v_angle : T; v_bs_angle : T; v_bs_stiff : T;
  v_tfric : T; v_rest : T; v_stiff : T; v_tdamp : T;
  v_bstiff : T; v_bfric : T; v_bdamp : T }.
Record contact_cfg := ContactCfg { o_dist : T; o_mu : T }.
Record extras_cfg := ExtrasCfg {
  x_points : T; x_stiff : T; x_damp : T; x_spin : T; x_roll : T }.

Inductive config :=
| KGravity
| KDistance
| KSoft (dist stiff damp : T)
| KHinge (h : hinge_cfg)
| KGeneric (l0 l1 l2 a0 a1 a2 : dof_cfg)
| KCv (c : cv_cfg)
| KCone (bs_stiff bs_len : T)
| KPoint (torque : T)
| KContact (c : contact_cfg)
| KExtras (c : contact_cfg) (x : extras_cfg).

(** Position in [constraints_tuple], include/edyn/constraints/constraint.hpp 22–33. *)
Definition kind (c : config) : nat :=
  match c with
  | KGravity => 0 | KDistance => 1 | KSoft _ _ _ => 2 | KHinge _ => 3
  | KGeneric _ _ _ _ _ _ => 4 | KCv _ => 5 | KCone _ _ => 6 | KPoint _ => 7
  | KContact _ => 8 | KExtras _ _ => 9
  end.
Definition num_kinds : nat := 10.

(** Number of impulse fields. *)
Definition slots (c : config) : nat :=
  match c with
  | KGravity | KDistance => 1 | KSoft _ _ _ => 2 | KHinge _ => 9
  | KGeneric _ _ _ _ _ _ => 24 | KCv _ => 9 | KCone _ _ => 2 | KPoint _ => 4
  | KContact _ => 3 | KExtras _ _ => 6
  end.

Record con := Con { c_cfg : config; c_imp : list T; c_a : nat; c_b : nat }.

(** One call of [add_row] together with what [prepare] assigns to the row, its
    options and its friction rows through the returned references. *)
Record req := Req {
  q_J : jac N; q_lo : T; q_up : T; q_imp : T; q_err : T; q_erp : T; q_rest : T;
  q_fric : option (fric N); q_roll : option (fric N); q_spin : option (spin N) }.

Definition fld (imps : list T) (i : nat) : T := nth i imps n0.
Definition plain (g : geo) (imps : list T) (i : nat) (lo up : T) : req :=
  Req (g_J g i) lo up (fld imps i) (g_err g i) (g_erp g i) (g_rest g i) None None None.
Definition when {A} (b : bool) (l : list A) : list A := if b then l else [].

(** Limits of a spring row: [std::min(p, 0)], [std::max(0, p)]. *)
Definition spring_row (g : geo) (imps : list T) (i : nat) (p : T) : req :=
  plain g imps i (fmin p n0) (fmax n0 p).
Definition sym_row (g : geo) (imps : list T) (i : nat) (p : T) : req :=
  plain g imps i (nneg p) p.
Definition two : T := n1 ⊕ n1.

(** gravity_constraint.cpp 6–28; [g_s 0] is [length_sqr(d)]. *)
Definition prep_gravity (imps : list T) (dt : T) (g : geo) (A B : body) : list req :=
  let l2 := fmax (g_s g 0) neps in
  let F := ngrav ⊘ (l2 ⊙ b_im A ⊙ b_im B) in
  [sym_row g imps 0 (F ⊙ dt)].

(** distance_constraint.cpp 7–31. *)
Definition prep_distance (imps : list T) (g : geo) : list req :=
  [sym_row g imps 0 nlarge].

(** soft_distance_constraint.cpp 8–63; [g_s 0] is [dist], [g_s 1] is [relspd]. *)
Definition prep_soft (dist stiff damp : T) (imps : list T) (dt : T) (g : geo) : list req :=
  let spring := stiff ⊙ (dist ⊖ g_s g 0) ⊙ dt in
  let damping := damp ⊙ g_s g 1 ⊙ dt in
  [plain g imps 0 (fmin spring n0) (fmax n0 spring);
   sym_row g imps 1 (fabs damping)].

(** The deflection of a bump stop, hinge_constraint.cpp 118–126 and 234–242,
    cvjoint_constraint.cpp 115–123, generic_constraint.cpp 69–77 and 195–203. *)
Definition bump (lo up margin angle : T) : T :=
  let bmin := lo ⊕ margin in
  let bmax := up ⊖ margin in
  if angle <? bmin then angle ⊖ bmin
  else if bmax <? angle then angle ⊖ bmax
  else n0.
(** [x != 0]. *)
Definition nonzero (x : T) : bool := (x <? n0) || (n0 <? x).

Definition h_has_limit (h : hinge_cfg) : bool := h_min h <? h_max h.
Definition h_has_spring (h : hinge_cfg) : bool := n0 <? h_stiff h.
Definition h_has_torque (h : hinge_cfg) : bool := (n0 <? h_torque h) || (n0 <? h_damp h).
Definition h_has_bump (h : hinge_cfg) : bool := (n0 <? h_bs_stiff h) && (n0 <? h_bs_angle h).
Definition set_h_angle (h : hinge_cfg) (a : T) : hinge_cfg :=
  HingeCfg (h_min h) (h_max h) (h_bs_angle h) (h_bs_stiff h)
           (h_torque h) (h_rest h) (h_stiff h) (h_damp h) a.

(** Rows that only allow impulses towards the nearer limit: [lo, 0] below the
    middle of the range, [0, up] above it. *)
Definition limit_row (g : geo) (imps : list T) (i : nat) (lo up x : T) : req :=
  if x <? (lo ⊕ up) ⊘ two then plain g imps i (nneg nlarge) n0
  else plain g imps i n0 nlarge.

(** hinge_constraint.cpp 26–178; [g_s 0] is [angle_delta], [g_s 1] is [relvel]. *)
Definition prep_hinge (h : hinge_cfg) (imps : list T) (dt : T) (g : geo)
    : hinge_cfg * list req :=
  let has_limit := h_has_limit h in
  let has_spring := h_has_spring h in
  let has_torque := h_has_torque h in
  let h := if has_limit || has_spring
           then set_h_angle h (h_angle h ⊕ g_s g 0) else h in
  let defl := bump (h_min h) (h_max h) (h_bs_angle h) (h_angle h) in
  let spring := h_stiff h ⊙ (h_angle h ⊖ h_rest h) ⊙ dt in
  let torque := h_torque h ⊙ dt in
  let torque := if n0 <? h_damp h
                then torque ⊕ fabs (g_s g 1) ⊙ h_damp h ⊙ dt else torque in
  (h,
   [sym_row g imps 0 nmax; sym_row g imps 1 nmax; sym_row g imps 2 nmax;
    sym_row g imps 3 nmax; sym_row g imps 4 nmax]
   ++ when has_limit
        (limit_row g imps 5 (h_min h) (h_max h) (h_angle h)
         :: when (h_has_bump h && nonzero defl)
              [spring_row g imps 6 (h_bs_stiff h ⊙ defl ⊙ dt)])
   ++ when has_spring [spring_row g imps 7 spring]
   ++ when has_torque [sym_row g imps 8 torque]).

(** One degree of freedom of generic_constraint.cpp 22–124 (linear) or 130–249
    (angular): same rows, [g_s i] is [offset_proj] or [current_angle] and
    [g_s (S i)] is [relspd] or [relvel], with [i] its first field. *)
Definition d_nonzero (d : dof_cfg) : bool := d_min d <? d_max d.
Definition d_bump (d : dof_cfg) : bool :=
  d_enabled d && d_nonzero d && (n0 <? d_bs_stiff d) && (n0 <? d_bs_len d).
Definition d_springy (d : dof_cfg) : bool := n0 <? d_spring d.
Definition d_frictional (d : dof_cfg) : bool := (n0 <? d_fric d) || (n0 <? d_damp d).
Definition prep_dof (d : dof_cfg) (i : nat) (imps : list T) (dt : T) (g : geo)
    : res (list req) :=
  let x := g_s g i in
  _ ← (if d_enabled d then assert_ (negb (d_max d <? d_min d)) else Ok tt);
  let defl := bump (d_min d) (d_max d) (d_bs_len d) x in
  let fr := d_fric d ⊙ dt in
  let fr := if n0 <? d_damp d then fr ⊕ fabs (g_s g (S i)) ⊙ d_damp d ⊙ dt else fr in
  Ok (when (d_enabled d)
        [if d_nonzero d then limit_row g imps i (d_min d) (d_max d) x
         else sym_row g imps i nlarge]
      ++ when (d_bump d) [spring_row g imps (i + 1) (d_bs_stiff d ⊙ defl ⊙ dt)]
      ++ when (d_springy d)
           [spring_row g imps (i + 2) (d_spring d ⊙ (x ⊖ d_rest d) ⊙ dt)]
      ++ when (d_frictional d) [sym_row g imps (i + 3) fr]).

(** generic_constraint.cpp 10–250. *)
Definition prep_generic (l0 l1 l2 a0 a1 a2 : dof_cfg) (imps : list T) (dt : T) (g : geo)
    : res (list req) :=
  r0 ← prep_dof l0 0 imps dt g;
  r1 ← prep_dof l1 4 imps dt g;
  r2 ← prep_dof l2 8 imps dt g;
  r3 ← prep_dof a0 12 imps dt g;
  r4 ← prep_dof a1 16 imps dt g;
  r5 ← prep_dof a2 20 imps dt g;
  Ok (r0 ++ r1 ++ r2 ++ r3 ++ r4 ++ r5).

Definition v_has_limit (c : cv_cfg) : bool := v_min c <? v_max c.
Definition v_has_bump (c : cv_cfg) : bool :=
  v_has_limit c && (n0 <? v_bs_stiff c) && (n0 <? v_bs_angle c).
Definition v_has_spring (c : cv_cfg) : bool := v_has_limit c && (n0 <? v_stiff c).
Definition v_has_tfric (c : cv_cfg) : bool :=
  v_has_limit c && ((n0 <? v_tfric c) || (n0 <? v_tdamp c)).
Definition v_has_bfric (c : cv_cfg) : bool := (n0 <? v_bfric c) || (n0 <? v_bdamp c).
Definition v_has_bend (c : cv_cfg) : bool := n0 <? v_bstiff c.
Definition set_v_angle (c : cv_cfg) (a : T) : cv_cfg :=
  CvCfg (v_min c) (v_max c) a (v_bs_angle c) (v_bs_stiff c) (v_tfric c) (v_rest c)
        (v_stiff c) (v_tdamp c) (v_bstiff c) (v_bfric c) (v_bdamp c).

(** cvjoint_constraint.cpp 45–228; [g_s 0] is the [angle_delta] of
    [update_angle], [g_s 1] is [relvel], [g_s 2] is [angspd_rel], [g_s 3] is the
    bend [angle].  Line 196 tests [twist_damping] where the bending row is
    concerned. *)
Definition prep_cv (c : cv_cfg) (imps : list T) (dt : T) (g : geo) : cv_cfg * list req :=
  let has_limit := v_has_limit c in
  let c := if has_limit then set_v_angle c (v_angle c ⊕ g_s g 0) else c in
  let defl := bump (v_min c) (v_max c) (v_bs_angle c) (v_angle c) in
  let tfr := v_tfric c ⊙ dt in
  let tfr := if n0 <? v_tdamp c then tfr ⊕ fabs (g_s g 1) ⊙ v_tdamp c ⊙ dt else tfr in
  let bfr := v_bfric c ⊙ dt in
  let bfr := if n0 <? v_tdamp c then bfr ⊕ fabs (g_s g 2) ⊙ v_bdamp c ⊙ dt else bfr in
  (c,
   [sym_row g imps 0 nlarge; sym_row g imps 1 nlarge; sym_row g imps 2 nlarge;
    if has_limit then limit_row g imps 3 (v_min c) (v_max c) (v_angle c)
    else sym_row g imps 3 nlarge]
   ++ when (v_has_bump c) [spring_row g imps 4 (v_bs_stiff c ⊙ defl ⊙ dt)]
   ++ when (v_has_spring c)
        [spring_row g imps 5 (v_stiff c ⊙ (v_angle c ⊖ v_rest c) ⊙ dt)]
   ++ when (v_has_tfric c) [sym_row g imps 6 tfr]
   ++ when (v_has_bfric c) [sym_row g imps 7 bfr]
   ++ when (v_has_bend c) [spring_row g imps 8 (v_bstiff c ⊙ g_s g 3 ⊙ dt)]).

(** cone_constraint.cpp 12–94; [g_s 0] is [error]. *)
Definition prep_cone (bss bsl : T) (imps : list T) (dt : T) (g : geo) : list req :=
  plain g imps 0 n0 nlarge
  :: when ((n0 <? bss) && (n0 <? bsl))
       [plain g imps 1 n0 (fmax n0 (bss ⊙ (bsl ⊕ g_s g 0) ⊙ dt))].

(** point_constraint.cpp 9–46: the friction row also needs a non-zero relative
    angular velocity ([try_normalize]). *)
Definition prep_point (torque : T) (imps : list T) (dt : T) (g : geo) : list req :=
  [sym_row g imps 0 nmax; sym_row g imps 1 nmax; sym_row g imps 2 nmax]
  ++ when ((n0 <? torque) && g_spin g) [sym_row g imps 3 (torque ⊙ dt)].

(** One friction direction, contact_constraint.cpp 48–54. *)
Definition fric_dir (g : geo) (imps : list T) (i : nat) (A B : body) : irow N :=
  IRow (g_J g i)
       (n1 ⊘ jmj (g_J g i) (b_im A) (b_I A) (b_im B) (b_I B))
       (nneg (relspeed (g_J g i) (b_v A) (b_w A) (b_v B) (b_w B)))
       (fld imps i).

(** contact_constraint.cpp 15–55.  The row index of the friction row is set
    only when the rows are packed.  [j0] of the normal row is the normal. *)
Definition prep_contact (c : contact_cfg) (imps : list T) (g : geo) (A B : body)
    : res req :=
  _ ← assert_ (neps <? dot (j0 (g_J g 0)) (j0 (g_J g 0)));
  let f := Fric (fric_dir g imps 1 A B) (fric_dir g imps 2 A B) (o_mu c) 0 in
  Ok (Req (g_J g 0) n0 nlarge (fld imps 0) (g_err g 0) (g_erp g 0) (g_rest g 0)
          (Some f) None None).

(** One rolling direction, contact_extras_constraint.cpp 58–64. *)
Definition roll_dir (g : geo) (imps : list T) (i : nat) (A B : body) : irow N :=
  let J := g_J g i in
  let m := dot (mvmul (b_I A) (j1 J)) (j1 J) ⊕ dot (mvmul (b_I B) (j3 J)) (j3 J) in
  IRow J (if neps <? m then n1 ⊘ m else n0)
       (nneg (relspeed J (b_v A) (b_w A) (b_v B) (b_w B))) (fld imps i).

(** contact_extras_constraint.cpp 12–78; [g_s 0] is [normal_relvel]. *)
Definition prep_extras (c : contact_cfg) (x : extras_cfg) (imps : list T) (dt : T)
    (g : geo) (A B : body) : res req :=
  q ← prep_contact c imps g A B;
  let soft := (o_dist c <? n0) && (x_stiff x <? nlarge) in
  let spring := nneg (o_dist c) ⊙ x_stiff x ⊘ x_points x in
  let damper := nneg (g_s g 0) ⊙ x_damp x ⊘ x_points x in
  let up := if soft then fmax (spring ⊕ damper) n0 ⊙ dt else q_up q in
  let roll := if n0 <? x_roll x
              then Some (Fric (roll_dir g imps 3 A B) (roll_dir g imps 4 A B) (x_roll x) 0)
              else None in
  let J0 := j1 (g_J g 5) in
  let J1 := j3 (g_J g 5) in
  let m := dot (mvmul (b_I A) J0) J0 ⊕ dot (mvmul (b_I B) J1) J1 in
  spin ← (if n0 <? x_spin x then
            _ ← assert_ (neps <? m);
            Ok (Some (Spin J0 J1 (n1 ⊘ m)
                        (nneg (dot J0 (b_w A) ⊕ dot J1 (b_w B)))
                        (fld imps 5) (x_spin x) 0))
          else Ok None);
  Ok (Req (q_J q) (q_lo q) up (q_imp q) (q_err q) (q_erp q) (q_rest q)
          (q_fric q) roll spin).

(** [con.prepare(cache, dt, bodyA, bodyB)]: the constraint afterwards (hinge
    and cv-joint track their angle) and the rows added, in order. *)
Definition prepare (c : config) (imps : list T) (dt : T) (g : geo) (A B : body)
    : res (config * list req) :=
  match c with
  | KGravity => Ok (c, prep_gravity imps dt g A B)
  | KDistance => Ok (c, prep_distance imps g)
  | KSoft d s m => Ok (c, prep_soft d s m imps dt g)
  | KHinge h => let '(h, qs) := prep_hinge h imps dt g in Ok (KHinge h, qs)
  | KGeneric l0 l1 l2 a0 a1 a2 =>
      qs ← prep_generic l0 l1 l2 a0 a1 a2 imps dt g; Ok (c, qs)
  | KCv v => let '(v, qs) := prep_cv v imps dt g in Ok (KCv v, qs)
  | KCone s l => Ok (c, prep_cone s l imps dt g)
  | KPoint t => Ok (c, prep_point t imps dt g)
  | KContact o => q ← prep_contact o imps g A B; Ok (c, [q])
  | KExtras o x => q ← prep_extras o x imps dt g A B; Ok (c, [q])
  end.

(** Reading [impulses[row_idx++]] into field [i]; beyond the end of the vector
    it is undefined behaviour.  The state is the fields and what is left. *)
Definition put (i : nat) (st : list T * list T) : res (list T * list T) :=
  match snd st with
  | [] => UB
  | x :: rest => Ok (<[i := x]> (fst st), rest)
  end.
Definition put_if (b : bool) (i : nat) (st : list T * list T) : res (list T * list T) :=
  if b then put i st else Ok st.

(** generic_constraint.cpp 287–306, 308–327. *)
Definition store_dof (d : dof_cfg) (i : nat) (st : list T * list T)
    : res (list T * list T) :=
  st ← put_if (d_enabled d) i st;
  st ← put_if (d_bump d) (i + 1) st;
  st ← put_if (d_springy d) (i + 2) st;
  put_if (d_frictional d) (i + 3) st.

(** [store_applied_impulses] of each type: gravity_constraint.cpp 30–32,
    distance_constraint.cpp 33–35, soft_distance_constraint.cpp 65–68,
    hinge_constraint.cpp 215–257, generic_constraint.cpp 284–328,
    cvjoint_constraint.cpp 270–300, cone_constraint.cpp 96–102,
    point_constraint.cpp 48–58, contact_constraint.cpp 92–98,
    contact_extras_constraint.cpp 88–103. *)
Definition store_impulses (c : config) (imps vals : list T) : res (list T) :=
  st ← match c with
       | KGravity | KDistance => put 0 (imps, vals)
       | KSoft _ _ _ => st ← put 0 (imps, vals); put 1 st
       | KHinge h =>
           st ← put 0 (imps, vals); st ← put 1 st; st ← put 2 st;
           st ← put 3 st; st ← put 4 st;
           st ← put_if (h_has_limit h) 5 st;
           st ← put_if (h_has_limit h && (h_has_bump h
                          && nonzero (bump (h_min h) (h_max h) (h_bs_angle h) (h_angle h)))) 6 st;
           st ← put_if (h_has_spring h) 7 st;
           put_if (h_has_torque h) 8 st
       | KGeneric l0 l1 l2 a0 a1 a2 =>
           st ← store_dof l0 0 (imps, vals); st ← store_dof l1 4 st;
           st ← store_dof l2 8 st; st ← store_dof a0 12 st;
           st ← store_dof a1 16 st; store_dof a2 20 st
       | KCv v =>
           st ← put 0 (imps, vals); st ← put 1 st; st ← put 2 st; st ← put 3 st;
           st ← put_if (v_has_bump v) 4 st;
           st ← put_if (v_has_spring v) 5 st;
           st ← put_if (v_has_tfric v) 6 st;
           st ← put_if (v_has_bfric v) 7 st;
           put_if (v_has_bend v) 8 st
       | KCone bss bsl =>
           st ← put 0 (imps, vals); put_if ((n0 <? bss) && (n0 <? bsl)) 1 st
       | KPoint t =>
           st ← put 0 (imps, vals); st ← put 1 st; st ← put 2 st;
           put_if (n0 <? t) 3 st
       | KContact _ => st ← put 0 (imps, vals); st ← put 1 st; put 2 st
       | KExtras _ x =>
           st ← put 0 (imps, vals); st ← put 1 st; st ← put 2 st;
           st ← put_if (n0 <? x_roll x) 3 st;
           st ← put_if (n0 <? x_roll x) 4 st;
           put_if (n0 <? x_spin x) 5 st
       end;
  Ok (fst st).

(** [constraint_row_prep_cache::element], row_cache.hpp 60–72. *)
Record elem := Elem {
  e_row : row N; e_fric : option (fric N); e_roll : option (fric N);
  e_spin : option (spin N) }.

(** [constraint_row_prep_cache], row_cache.hpp 56–90: the first [num_rows]
    elements, the first [num_constraints] entries of [rows_per_constraint]
    and [current_constraint_index].  [clear] (169–181) is [empty_pcache]. *)
Record pcache := PCache { pc_rows : list elem; pc_per : list nat; pc_cur : nat }.
Definition empty_pcache : pcache := PCache [] [] 0.
Definition max_rows : nat := 16.
Definition max_constraints : nat := 8.

(** [add_constraint], row_cache.hpp 93–95: no check. *)
Definition add_constraint (pc : pcache) : pcache :=
  PCache (pc_rows pc) (pc_per pc ++ [0]) (pc_cur pc).

(** [add_row], row_cache.hpp 97–104. *)
Definition add_row (e : elem) (pc : pcache) : res pcache :=
  _ ← assert_ (bool_decide (length (pc_rows pc) < max_rows));
  _ ← assert_ (bool_decide (0 < length (pc_per pc)));
  _ ← require_ (bool_decide (length (pc_per pc) ≤ max_constraints));
  Ok (PCache (pc_rows pc ++ [e]) (alter S (length (pc_per pc) - 1) (pc_per pc)) (pc_cur pc)).
Fixpoint add_rows (es : list elem) (pc : pcache) : res pcache :=
  match es with
  | [] => Ok pc
  | e :: es => pc ← add_row e pc; add_rows es pc
  end.

(** solver.cpp 164–174 with [prepare_row], constraint_row.cpp 6–22. *)
Definition finish_row (A B : body) (q : req) : elem :=
  Elem (Row (q_J q) (n1 ⊘ jmj (q_J q) (b_im A) (b_I A) (b_im B) (b_I B))
            (nneg (q_err q ⊙ q_erp q
                   ⊕ relspeed (q_J q) (b_v A) (b_w A) (b_v B) (b_w B) ⊙ (n1 ⊕ q_rest q)))
            (q_lo q) (q_up q) (q_imp q) (b_im A) (b_im B) (b_I A) (b_I B)
            (b_ptr A) (b_ptr B))
       (q_fric q) (q_roll q) (q_spin q).

(** [invoke_prepare_constraint], solver.cpp 83–175.  Simplified: the rows enter
    the cache once [prepare] is done; it only appends. *)
Definition invoke_prepare (c : con) (pc : pcache) (dt : T) (g : geo) (bodies : nat → body)
    : res (con * pcache) :=
  let A := bodies (c_a c) in
  let B := bodies (c_b c) in
  let pc := add_constraint pc in
  '(cfg, qs) ← prepare (c_cfg c) (c_imp c) dt g A B;
  pc ← add_rows (map (finish_row A B) qs) pc;
  Ok (Con cfg (c_imp c) (c_a c) (c_b c), pc).

(** Constraint components, by entity and position of the type in the tuple. *)
Notation cons := (gmap (nat * nat) con).

(** The loop body of [prepare_constraints], solver.cpp 188–199. *)
Fixpoint prepare_kinds (ks : list nat) (e : nat) (cs : cons) (pc : pcache) (dt : T)
    (g : nat → nat → geo) (bodies : nat → body) : res (cons * pcache) :=
  match ks with
  | [] => Ok (cs, pc)
  | k :: ks =>
      '(cs, pc) ← match cs !! (e, k) with
                  | Some c => '(c, pc) ← invoke_prepare c pc dt (g e k) bodies;
                              Ok (<[(e, k) := c]> cs, pc)
                  | None => Ok (cs, pc)
                  end;
      prepare_kinds ks e cs pc dt g bodies
  end.
Definition prepare_entity (e : nat) (cs : cons) (dt : T) (g : nat → nat → geo)
    (bodies : nat → body) : res (cons * pcache) :=
  prepare_kinds (seq 0 num_kinds) e cs empty_pcache dt g bodies.

(** [prepare_constraints], solver.cpp 177–222, for the constraint entities of
    one island: each touches only its own components. *)
Fixpoint prepare_all (es : list nat) (cs : cons) (pcs : gmap nat pcache) (dt : T)
    (g : nat → nat → geo) (bodies : nat → body) : res (cons * gmap nat pcache) :=
  match es with
  | [] => Ok (cs, pcs)
  | e :: es =>
      '(cs, pc) ← prepare_entity e cs dt g bodies;
      prepare_all es cs (<[e := pc]> pcs) dt g bodies
  end.

(** [current_num_rows], row_cache.hpp 163–167. *)
Definition current_num_rows (pc : pcache) : res nat :=
  _ ← assert_ (bool_decide (0 < length (pc_per pc)));
  _ ← assert_ (bool_decide (pc_cur pc < length (pc_per pc)));
  _ ← require_ (bool_decide (pc_cur pc < max_constraints));
  opt_res (pc_per pc !! pc_cur pc).

(** The rows [consume_rows] hands out, row_cache.hpp 143–160; a row the
    constraints of this step did not write counts as undefined. *)
Definition consume_rows (pc : pcache) : res (list elem * pcache) :=
  n ← current_num_rows pc;
  let start := sum_list (take (pc_cur pc) (pc_per pc)) in
  _ ← require_ (bool_decide (start + n ≤ length (pc_rows pc)));
  Ok (take n (drop start (pc_rows pc)), PCache (pc_rows pc) (pc_per pc) (S (pc_cur pc))).

Definition set_idx (i : nat) (f : fric N) : fric N := Fric (f_0 f) (f_1 f) (f_mu f) i.
Definition set_pidx (i : nat) (p : spin N) : spin N :=
  Spin (p_J0 p) (p_J1 p) (p_eff p) (p_rhs p) (p_imp p) (p_mu p) i.

(** The function passed to [consume_rows], island_solver.cpp 138–158. *)
Definition pack_elem (k : cache N) (e : elem) : cache N :=
  let i := length (k_rows k) in
  Cache (k_rows k ++ [e_row e]) (k_num k)
        (k_flags k ++ [Flags (bool_decide (is_Some (e_fric e)))
                             (bool_decide (is_Some (e_roll e)))
                             (bool_decide (is_Some (e_spin e)))])
        (k_fric k ++ map (set_idx i) (option_list (e_fric e)))
        (k_roll k ++ map (set_idx i) (option_list (e_roll e)))
        (k_spin k ++ map (set_pidx i) (option_list (e_spin e))).

(** [insert_rows<C>], island_solver.cpp 113–160; the asserts on disabled and
    sleeping constraints (124–125) concern components not modelled here. *)
Fixpoint insert_rows (t : nat) (es : list nat) (cs : cons) (pcs : gmap nat pcache)
    (k : cache N) (ents : list nat) : res (gmap nat pcache * cache N * list nat) :=
  match es with
  | [] => Ok (pcs, k, ents)
  | e :: es =>
      match cs !! (e, t) with
      | None => insert_rows t es cs pcs k ents
      | Some _ =>
          pc ← opt_res (pcs !! e);
          n ← current_num_rows pc;
          '(elems, pc) ← consume_rows pc;
          let k := Cache (k_rows k) (k_num k ++ [n]) (k_flags k)
                         (k_fric k) (k_roll k) (k_spin k) in
          insert_rows t es cs (<[e := pc]> pcs) (foldl pack_elem k elems) (ents ++ [e])
      end
  end.
Fixpoint insert_kinds (ts : list nat) (es : list nat) (cs : cons) (pcs : gmap nat pcache)
    (k : cache N) (ents : list (list nat)) : res (gmap nat pcache * cache N * list (list nat)) :=
  match ts with
  | [] => Ok (pcs, k, ents)
  | t :: ts =>
      '(pcs, k, l) ← insert_rows t es cs pcs k [];
      insert_kinds ts es cs pcs k (ents ++ [l])
  end.

(** [pack_rows], island_solver.cpp 162–175. *)
Definition pack_rows (es : list nat) (cs : cons) (pcs : gmap nat pcache) (s : store N)
    : res (cache N * list (list nat) * store N) :=
  '(_, k, ents) ← insert_kinds (seq 0 num_kinds) es cs pcs empty_cache [];
  s ← warm_cache k s;
  Ok (k, ents, s).

(** The five counters of [assign_applied_impulses], island_solver.cpp 239–243. *)
Record cursor := Cursor { u_con : nat; u_row : nat; u_fric : nat; u_roll : nat; u_spin : nat }.

(** The inner loop of [update_impulse], island_solver.cpp 189–209. *)
Fixpoint gather (n : nat) (k : cache N) (u : cursor) : res (list T * cursor) :=
  match n with
  | O => Ok ([], u)
  | S n =>
      fl ← opt_res (k_flags k !! u_row u);
      r ← opt_res (k_rows k !! u_row u);
      let u := Cursor (u_con u) (S (u_row u)) (u_fric u) (u_roll u) (u_spin u) in
      '(l1, u) ← (if fl_fric fl then
                    f ← opt_res (k_fric k !! u_fric u);
                    Ok ([i_imp (f_0 f); i_imp (f_1 f)],
                        Cursor (u_con u) (u_row u) (S (u_fric u)) (u_roll u) (u_spin u))
                  else Ok ([], u));
      '(l2, u) ← (if fl_roll fl then
                    f ← opt_res (k_roll k !! u_roll u);
                    Ok ([i_imp (f_0 f); i_imp (f_1 f)],
                        Cursor (u_con u) (u_row u) (u_fric u) (S (u_roll u)) (u_spin u))
                  else Ok ([], u));
      '(l3, u) ← (if fl_spin fl then
                    p ← opt_res (k_spin k !! u_spin u);
                    Ok ([p_imp p],
                        Cursor (u_con u) (u_row u) (u_fric u) (u_roll u) (S (u_spin u)))
                  else Ok ([], u));
      '(rest, u) ← gather n k u;
      Ok (r_imp r :: l1 ++ l2 ++ l3 ++ rest, u)
  end.

(** [update_impulse<C>], island_solver.cpp 177–216. *)
Fixpoint update_impulse (t : nat) (ents : list nat) (k : cache N) (cs : cons) (u : cursor)
    : res (cons * cursor) :=
  match ents with
  | [] => Ok (cs, u)
  | e :: ents =>
      c ← opt_res (cs !! (e, t));
      n ← opt_res (k_num k !! u_con u);
      '(vals, u) ← gather n k u;
      imps ← store_impulses (c_cfg c) (c_imp c) vals;
      update_impulse t ents k (<[(e, t) := Con (c_cfg c) imps (c_a c) (c_b c)]> cs)
        (Cursor (S (u_con u)) (u_row u) (u_fric u) (u_roll u) (u_spin u))
  end.
Fixpoint update_kinds (t : nat) (ents : list (list nat)) (k : cache N) (cs : cons) (u : cursor)
    : res cons :=
  match ents with
  | [] => Ok cs
  | l :: ents =>
      '(cs, u) ← update_impulse t l k cs u;
      update_kinds (S t) ents k cs u
  end.

(** [assign_applied_impulses], island_solver.cpp 218–248. *)
Definition assign_impulses (k : cache N) (ents : list (list nat)) (cs : cons) : res cons :=
  update_kinds 0 ents k cs (Cursor 0 0 0 0 0).

(** The constraint part of one step of an island: [prepare_constraints]
    followed by [run_island_solver_seq], island_solver.cpp 521–536, without the
    integration of velocities and the position iterations, which touch neither
    the rows nor the impulse fields.  Returns the packed rows as the iterations
    left them too. *)
Definition island_step (es : list nat) (n : nat) (dt : T) (g : nat → nat → geo)
    (bodies : nat → body) (cs : cons) (s : store N) : res (cons * cache N * store N) :=
  '(cs, pcs) ← prepare_all es cs ∅ dt g bodies;
  '(k, ents, s) ← pack_rows es cs pcs s;
  '(k, s) ← iterate_cache n k s;
  cs ← assign_impulses k ents cs;
  Ok (cs, k, s).

(** [clear_applied_impulses_single], include/edyn/util/constraint_util.hpp
    140–151: every constraint is handed sixteen zeros. *)
Definition clear_impulses (c : con) : res con :=
  imps ← store_impulses (c_cfg c) (c_imp c) (replicate 16 n0);
  Ok (Con (c_cfg c) imps (c_a c) (c_b c)).

End model.
Notation consmap N := (gmap (nat * nat) (@con N)).
Arguments body : clear implicits. Arguments geo : clear implicits.
Arguments config : clear implicits. Arguments con : clear implicits.
Arguments req : clear implicits. Arguments elem : clear implicits.
Arguments pcache : clear implicits.
Arguments hinge_cfg : clear implicits. Arguments dof_cfg : clear implicits.
Arguments cv_cfg : clear implicits. Arguments contact_cfg : clear implicits.
Arguments extras_cfg : clear implicits.

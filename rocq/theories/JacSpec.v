(** What constraints are expected to do, in the terms of mechanics: momentum,
    rates of change along motions, angles followed over turns, cones. *)
From Verif Require Import Outcome BoxModel GeoModel RotSpec JacModel.
From Verif Require RowModel JointModel.
From Coq Require Import Reals.
Local Open Scope R_scope.

(** * Rows *)
Definition of_vec (v : RowModel.vec Rnum) : v3 := V3 (RowModel.vx v) (RowModel.vy v) (RowModel.vz v).
Definition of_jac (J : RowModel.jac Rnum) : jac :=
  Jac (of_vec (RowModel.j0 J)) (of_vec (RowModel.j1 J)) (of_vec (RowModel.j2 J)) (of_vec (RowModel.j3 J)).
(** All the directions in which a row and the friction rows that come with it
    push the two bodies. *)
Definition fric_jacs (f : option (RowModel.fric Rnum)) : list jac :=
  match f with
  | Some f => [of_jac (RowModel.i_J (RowModel.f_0 f)); of_jac (RowModel.i_J (RowModel.f_1 f))]
  | None => []
  end.
Definition spin_jacs (s : option (RowModel.spin Rnum)) : list jac :=
  match s with
  | Some s => [Jac vec0 (of_vec (RowModel.p_J0 s)) vec0 (of_vec (RowModel.p_J1 s))]
  | None => []
  end.
Definition row_jacs (q : JointModel.req Rnum) : list jac :=
  of_jac (JointModel.q_J q) :: fric_jacs (JointModel.q_fric q) ++ fric_jacs (JointModel.q_roll q)
    ++ spin_jacs (JointModel.q_spin q).

(** * Momentum *)
(** [m] and [I] are the mass and the inertia of a dynamic body. *)
Definition has_mass (b : cbody) (m : R) (I : mat) : Prop :=
  m * cb_im b = 1 ∧ ∀ v, mvec I (mvec (cb_I b) v) = v.
Definition linear_momentum (b : cbody) (m : R) : v3 := scl m (cb_lin b).
(** About the point [o]. *)
Definition angular_momentum (o : v3) (b : cbody) (m : R) (I : mat) : v3 :=
  add3 (cross3 (sub3 (cb_pos b) o) (scl m (cb_lin b))) (mvec I (cb_ang b)).

(** The configurations in which a constraint acts on both bodies along one line
    or about one axis. *)
Definition in_line (c : JointModel.config Rnum) (j : joint) (A B : cbody) : Prop :=
  match c with
  | JointModel.KGravity => True
  | JointModel.KDistance | JointModel.KSoft _ _ _ =>
      pivot_a j A = pivot_b j B ∨ eps < dsq (pivot_a j A) (pivot_b j B)
  | JointModel.KHinge _ | JointModel.KPoint _ | JointModel.KContact _ | JointModel.KExtras _ _ =>
      pivot_a j A = pivot_b j B
  | JointModel.KGeneric _ _ _ _ _ _ | JointModel.KCv _ =>
      pivot_a j A = pivot_b j B ∧ axis_a j A = axis_b j B
  | JointModel.KCone _ _ =>
      (* the pivot of B is on the cone; the frame is orthonormal *)
      qlsq (cb_orn A) = 1 ∧ (∀ v, mvec (jt_fa j) (vmat v (jt_fa j)) = v) ∧ ∃ n, cone_frame (cone_pivot j A B) (jt_tan0 j) (jt_tan1 j) = Ok (0, cone_pivot j A B, n)
  end.

(** * Rates *)
(** [f] has the derivative [v] at [t]. *)
Definition rate3 (f : R → v3) (t : R) (v : v3) : Prop :=
  derivable_pt_lim (λ s, vx (f s)) t (vx v) ∧
  derivable_pt_lim (λ s, vy (f s)) t (vy v) ∧
  derivable_pt_lim (λ s, vz (f s)) t (vz v).
(** A moving rigid body: its centre of mass in its own coordinates, and its
    position and orientation over time. *)
Record motion := Motion { mo_com : v3; mo_pos : R → v3; mo_orn : R → quat }.
(** The body as constraints see it at time [s], with the velocities of [b]. *)
Definition body_at (m : motion) (b : cbody) (s : R) : cbody :=
  CBody (to_world (neg3 (mo_com m)) (mo_pos m s) (mo_orn m s)) (mo_pos m s) (mo_orn m s)
        (cb_lin b) (cb_ang b) (cb_im b) (cb_I b).
(** At time [t] the body [b] is on the motion, the centre of mass moves with the
    linear velocity of [b] and every vector fixed to the body turns with its
    angular velocity. *)
Definition on_motion (m : motion) (t : R) (b : cbody) : Prop :=
  b = body_at m b t ∧
  rate3 (mo_pos m) t (cb_lin b) ∧
  (∀ s, qlsq (mo_orn m s) = 1) ∧
  ∀ v, rate3 (λ s, rotate (mo_orn m s) v) t (cross3 (cb_ang b) (rotate (cb_orn b) v)).
(** The quantity [f] of two moving bodies changes at the rate [r] at time [t]. *)
Definition rate_of (f : cbody → cbody → R) (mA mB : motion) (A B : cbody) (t r : R) : Prop :=
  derivable_pt_lim (λ s, f (body_at mA A s) (body_at mB B s)) t r.

(** The columns of a frame are an orthonormal right-handed basis. *)
Definition frame_ok (m : mat) : Prop :=
  unit3 (col0 m) ∧ unit3 (col1 m) ∧ unit3 (col2 m) ∧
  cross3 (col0 m) (col1 m) = col2 m ∧ cross3 (col1 m) (col2 m) = col0 m ∧
  cross3 (col2 m) (col0 m) = col1 m.

(** * Angles *)
Definition same_angle (a b : R) : Prop := ∃ k : Z, a = b + 2 * PI * IZR k.

(** The angle that the constraint keeps, starting from [start], when the angles
    [measured] are measured in turn. *)
Fixpoint tracked (measured : nat → R) (start : R) (n : nat) : R :=
  match n with
  | O => start
  | S n => track_angle (tracked measured start n) (measured n)
  end.

(** * Cones *)
(** How far outside of the cone with its tip at the origin, along the first axis,
    with the tangents [t0] and [t1] of its half angles, a point is; negative
    inside. *)
Definition outside_cone (t0 t1 : R) (p : v3) : R :=
  sqrt (vy p / t0 * (vy p / t0) + vz p / t1 * (vz p / t1)) - vx p.
(** [g] is the gradient of [f] at [p]. *)
Definition is_gradient (f : v3 → R) (p g : v3) : Prop :=
  ∀ d, derivable_pt_lim (λ h, f (add3 p (scl h d))) 0 (dot3 g d).

(** * Rows as demands *)
(** The speed along its direction that a row asks for, without restitution
    (constraint_row.cpp:21). *)
Definition row_target (q : JointModel.req Rnum) : R := - (JointModel.q_err q * JointModel.q_erp q).
(** The limit of a range that is nearer. *)
Definition nearer (lo up x : R) : R := if Rlt_dec x ((lo + up) / 2) then lo else up.

(** The row only pushes away from the nearer limit. *)
Definition one_way (lo up x : R) (q : JointModel.req Rnum) : Prop :=
  (x < (lo + up) / 2 ∧ JointModel.q_lo q = - large_scalar ∧ JointModel.q_up q = 0) ∨
  ((lo + up) / 2 <= x ∧ JointModel.q_lo q = 0 ∧ JointModel.q_up q = large_scalar).
(** Limits of a spring's impulse. *)
Definition spring_limits (p : R) (q : JointModel.req Rnum) : Prop :=
  JointModel.q_lo q = Rmin p 0 ∧ JointModel.q_up q = Rmax 0 p.
(** The configuration, the direction and the value of each degree of freedom of
    a generic constraint: three offsets, the twist and two swings. *)
Definition dof_of (l0 l1 l2 a0 a1 a2 : JointModel.dof_cfg Rnum) (k : nat) : JointModel.dof_cfg Rnum :=
  match k with 0 => l0 | 1 => l1 | 2 => l2 | 3 => a0 | 4 => a1 | _ => a2 end%nat.
Definition dof_jac (j : joint) (A B : cbody) (k : nat) : jac :=
  match k with
  | 0 | 1 | 2 => linear_jac j A B k
  | 3 => jturn (axis_a j A) (axis_b j B)
  | 4 => swing_jac j A B 1
  | _ => swing_jac j A B 2
  end%nat.
Definition dof_value (j : joint) (A B : cbody) (twist : R) (k : nat) : R :=
  match k with
  | 0 | 1 | 2 => linear_offset j A B k
  | 3 => twist
  | 4 => swing_angle j A B 1
  | _ => swing_angle j A B 2
  end%nat.

(** * Position corrections *)
(** A body whose derived quantities agree with its position and orientation. *)
Definition placed (b : sbody) : Prop :=
  qlsq (sb_orn b) = 1 ∧
  (∀ o, sb_origin b = Some o → o = to_world (neg3 (sb_com b)) (sb_pos b) (sb_orn b)).
(** The inverse inertia in world space: turned back, it acts as the one in
    object space. *)
Definition inertia_placed (b : sbody) : Prop :=
  ∀ v, mvec (sb_I b) v = rotate (sb_orn b) (mvec (sb_Il b) (rotate (qconj (sb_orn b)) v)).
(** A body that no impulse can move. *)
Definition fixed_body (b : sbody) : Prop := sb_im b = 0 ∧ sb_I b = Mat vec0 vec0 vec0 ∧ sb_Il b = Mat vec0 vec0 vec0.
Definition same_body (b c : sbody) : Prop :=
  sb_im b = sb_im c ∧ sb_Il b = sb_Il c ∧ sb_com b = sb_com c ∧
  (sb_origin b = None ↔ sb_origin c = None).
(** What every position correction of a pair respects. *)
Definition fair (A B A' B' : sbody) : Prop :=
  same_body A' A ∧ same_body B' B ∧
  (placed A → placed A') ∧ (placed B → placed B') ∧
  (placed A → inertia_placed A → inertia_placed A') ∧ (placed B → inertia_placed B → inertia_placed B') ∧
  (placed A → fixed_body A → A' = A) ∧ (placed B → fixed_body B → B' = B) ∧
  (∀ mA mB, mA * sb_im A = 1 → mB * sb_im B = 1 →
     add3 (scl mA (sb_pos A')) (scl mB (sb_pos B')) = add3 (scl mA (sb_pos A)) (scl mB (sb_pos B))).

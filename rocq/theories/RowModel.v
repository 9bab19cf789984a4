(** Model of the velocity constraint rows and of the iterations of the
    sequential impulse solver:
    src/edyn/constraints/constraint_row.cpp, constraint_row_friction.cpp,
    constraint_row_spin_friction.cpp, include/edyn/dynamics/row_cache.hpp and
    the row part of src/edyn/dynamics/island_solver.cpp.

    Numbers.  The code computes with [scalar] (float or double).  The model is
    parametric in the number type and in every operation on it, so a theorem
    states exactly which laws it needs: most need none at all or only the order
    laws floats have; the ones about momentum need the laws of a field and are
    therefore statements about exact arithmetic. *)
From Verif Require Import Outcome.

(** [scalar] (include/edyn/math/scalar.hpp) with the operations the solver
    uses; [nltb] is [<], [nsqrt] is [std::sqrt], [neps] is [EDYN_EPSILON],
    [nlarge] is [large_scalar], [nmax] is [EDYN_SCALAR_MAX], [ngrav] is
    [gravitational_constant] (include/edyn/math/constants.hpp). *)
Record num := Num {
  nt :> Type;
  n0 : nt; n1 : nt;
  nadd : nt → nt → nt; nsub : nt → nt → nt;
  nmul : nt → nt → nt; ndiv : nt → nt → nt;
  nneg : nt → nt; nsqrt : nt → nt;
  nltb : nt → nt → bool;
  neps : nt; nlarge : nt; nmax : nt; ngrav : nt }.
Arguments n0 {_}. Arguments n1 {_}. Arguments nadd {_}. Arguments nsub {_}.
Arguments nmul {_}. Arguments ndiv {_}. Arguments nneg {_}. Arguments nsqrt {_}.
Arguments nltb {_}. Arguments neps {_}. Arguments nlarge {_}.
Arguments nmax {_}. Arguments ngrav {_}.

Declare Scope num_scope.
Delimit Scope num_scope with N_.
Infix "⊕" := nadd (at level 50, left associativity) : num_scope.
Infix "⊖" := nsub (at level 50, left associativity) : num_scope.
Infix "⊙" := nmul (at level 40, left associativity) : num_scope.
Infix "⊘" := ndiv (at level 40, left associativity) : num_scope.
Notation "x <? y" := (nltb x y) : num_scope.
Global Open Scope num_scope.

Section model.
Context {N : num}.
Notation T := (nt N).

(** [std::min], [std::max], [std::abs]. *)
Definition fmin (a b : T) : T := if b <? a then b else a.
Definition fmax (a b : T) : T := if a <? b then b else a.
Definition fabs (a : T) : T := if a <? n0 then nneg a else a.

(** [vector3] and its operations, include/edyn/math/vector3.hpp 60–195. *)
Record vec := Vec { vx : T; vy : T; vz : T }.
Definition vzero : vec := Vec n0 n0 n0.
Definition vadd (a b : vec) : vec :=
  Vec (vx a ⊕ vx b) (vy a ⊕ vy b) (vz a ⊕ vz b).
Definition vneg (a : vec) : vec := Vec (nneg (vx a)) (nneg (vy a)) (nneg (vz a)).
(** [scalar * vector3] and [vector3 * scalar]. *)
Definition svmul (s : T) (a : vec) : vec := Vec (s ⊙ vx a) (s ⊙ vy a) (s ⊙ vz a).
Definition vsmul (a : vec) (s : T) : vec := Vec (vx a ⊙ s) (vy a ⊙ s) (vz a ⊙ s).
Definition dot (a b : vec) : T := vx a ⊙ vx b ⊕ vy a ⊙ vy b ⊕ vz a ⊙ vz b.

(** [matrix3x3] by rows; [matrix3x3 * vector3], include/edyn/math/matrix3x3.hpp 67–69. *)
Record mat := Mat { m0 : vec; m1 : vec; m2 : vec }.
Definition mzero : mat := Mat vzero vzero vzero.
Definition mvmul (m : mat) (v : vec) : vec :=
  Vec (dot (m0 m) v) (dot (m1 m) v) (dot (m2 m) v).

(** [std::array<vector3, 4> J]. *)
Record jac := Jac { j0 : vec; j1 : vec; j2 : vec; j3 : vec }.

(** The [delta_linvel] and [delta_angvel] components.  A row points to those of
    its two bodies, or to the dummies of solver.cpp 65–66 for a body that is
    not procedural: the pointer [None].  The pointers stay valid while the
    solver runs, since no component is added or removed. *)
Notation ptr := (option nat).
Record store := Store { s_dv : ptr → vec; s_dw : ptr → vec }.

Definition upd (f : ptr → vec) (p : ptr) (v : vec) : ptr → vec :=
  λ q, if decide (q = p) then v else f q.
(** [*p += v]. *)
Definition add_dv (s : store) (p : ptr) (v : vec) : store :=
  Store (upd (s_dv s) p (vadd (s_dv s p) v)) (s_dw s).
Definition add_dw (s : store) (p : ptr) (v : vec) : store :=
  Store (s_dv s) (upd (s_dw s) p (vadd (s_dw s p) v)).

(** [constraint_row], constraint_row.hpp 20–48. *)
Record row := Row {
  r_J : jac;
  r_eff : T;            (* eff_mass *)
  r_rhs : T;
  r_lo : T; r_up : T;   (* lower_limit, upper_limit *)
  r_imp : T;            (* impulse *)
  r_imA : T; r_imB : T; (* inv_mA, inv_mB *)
  r_IA : mat; r_IB : mat; (* inv_IA, inv_IB *)
  r_A : ptr; r_B : ptr  (* dvA/dwA, dvB/dwB *) }.

Definition set_imp (r : row) (i : T) : row :=
  Row (r_J r) (r_eff r) (r_rhs r) (r_lo r) (r_up r) i
      (r_imA r) (r_imB r) (r_IA r) (r_IB r) (r_A r) (r_B r).

(** [get_relative_speed], src/edyn/util/constraint_util.cpp 148–158; also the
    sums written out in [prepare_row] and [solve]. *)
Definition relspeed (J : jac) (vA wA vB wB : vec) : T :=
  dot (j0 J) vA ⊕ dot (j1 J) wA ⊕ dot (j2 J) vB ⊕ dot (j3 J) wB.

(** [J_invM_JT] of [prepare_row] (constraint_row.cpp 10–13) and of
    [get_effective_mass] (constraint_util.cpp 137–146). *)
Definition jmj (J : jac) (imA : T) (IA : mat) (imB : T) (IB : mat) : T :=
  dot (j0 J) (j0 J) ⊙ imA ⊕ dot (mvmul IA (j1 J)) (j1 J)
  ⊕ dot (j2 J) (j2 J) ⊙ imB ⊕ dot (mvmul IB (j3 J)) (j3 J).

(** [apply_row_impulse], constraint_row.cpp 24–32. *)
Definition apply_row (imp : T) (r : row) (s : store) : store :=
  let s := add_dv s (r_A r) (vsmul (svmul (r_imA r) (j0 (r_J r))) imp) in
  let s := add_dv s (r_B r) (vsmul (svmul (r_imB r) (j2 (r_J r))) imp) in
  let s := add_dw s (r_A r) (vsmul (mvmul (r_IA r) (j1 (r_J r))) imp) in
  add_dw s (r_B r) (vsmul (mvmul (r_IB r) (j3 (r_J r))) imp).

(** [warm_start(constraint_row &)], constraint_row.cpp 34–36. *)
Definition warm_row (r : row) (s : store) : store := apply_row (r_imp r) r s.

(** The test both [solve] (constraint_row.cpp 45–53) and [solve_spin_friction]
    (constraint_row_spin_friction.cpp 15–23) make: new impulse and delta. *)
Definition clamp_imp (old new delta lo up : T) : T * T :=
  if new <? lo then (lo, lo ⊖ old)
  else if up <? new then (up, up ⊖ old)
  else (new, delta).

(** [solve(constraint_row &)], constraint_row.cpp 38–56. *)
Definition solve_row (r : row) (s : store) : row * T :=
  let relvel := relspeed (r_J r) (s_dv s (r_A r)) (s_dw s (r_A r))
                                 (s_dv s (r_B r)) (s_dw s (r_B r)) in
  let delta := (r_rhs r ⊖ relvel) ⊙ r_eff r in
  let '(i, d) := clamp_imp (r_imp r) (r_imp r ⊕ delta) delta (r_lo r) (r_up r) in
  (set_imp r i, d).

(** [constraint_row_friction::individual_row] and [constraint_row_friction],
    constraint_row_friction.hpp 12–23. *)
Record irow := IRow { i_J : jac; i_eff : T; i_rhs : T; i_imp : T }.
Definition set_iimp (r : irow) (i : T) : irow := IRow (i_J r) (i_eff r) (i_rhs r) i.
Record fric := Fric { f_0 : irow; f_1 : irow; f_mu : T; f_idx : nat }.

(** [constraint_row_spin_friction], constraint_row_spin_friction.hpp 10–19. *)
Record spin := Spin {
  p_J0 : vec; p_J1 : vec; p_eff : T; p_rhs : T; p_imp : T; p_mu : T; p_idx : nat }.
Definition set_pimp (p : spin) (i : T) : spin :=
  Spin (p_J0 p) (p_J1 p) (p_eff p) (p_rhs p) i (p_mu p) (p_idx p).

(** Lines 47–50 and 62–65 of constraint_row_friction.cpp: one friction
    direction applied through the normal row's bodies. *)
Definition apply_irow (imp : T) (i : irow) (n : row) (s : store) : store :=
  let s := add_dv s (r_A n) (vsmul (svmul (r_imA n) (j0 (i_J i))) imp) in
  let s := add_dw s (r_A n) (vsmul (mvmul (r_IA n) (j1 (i_J i))) imp) in
  let s := add_dv s (r_B n) (vsmul (svmul (r_imB n) (j2 (i_J i))) imp) in
  add_dw s (r_B n) (vsmul (mvmul (r_IB n) (j3 (i_J i))) imp).

(** The body of [solve_friction] once the normal row has been found,
    constraint_row_friction.cpp 17–51. *)
Definition friction_with (f : fric) (n : row) (s : store) : fric * store :=
  let want i := (i_rhs i ⊖ relspeed (i_J i) (s_dv s (r_A n)) (s_dw s (r_A n))
                                            (s_dv s (r_B n)) (s_dw s (r_B n))) ⊙ i_eff i in
  let d0 := want (f_0 f) in
  let d1 := want (f_1 f) in
  let i0 := i_imp (f_0 f) ⊕ d0 in
  let i1 := i_imp (f_1 f) ⊕ d1 in
  let len_sqr := i0 ⊙ i0 ⊕ i1 ⊙ i1 in
  let max_len := f_mu f ⊙ r_imp n in
  let '(i0, i1, d0, d1) :=
    if max_len ⊙ max_len <? len_sqr then
      let len := nsqrt len_sqr in
      let '(i0, i1) := if neps <? len
                       then (i0 ⊘ len ⊙ max_len, i1 ⊘ len ⊙ max_len)
                       else (n0, n0) in
      (i0, i1, i0 ⊖ i_imp (f_0 f), i1 ⊖ i_imp (f_1 f))
    else (i0, i1, d0, d1) in
  let s := apply_irow d0 (f_0 f) n s in
  let s := apply_irow d1 (f_1 f) n s in
  (Fric (set_iimp (f_0 f) i0) (set_iimp (f_1 f) i1) (f_mu f) (f_idx f), s).

(** [solve_friction], constraint_row_friction.cpp 11–52: an index outside the
    row array is undefined behaviour. *)
Definition solve_friction (f : fric) (rows : list row) (s : store) : res (fric * store) :=
  n ← opt_res (rows !! f_idx f);
  Ok (friction_with f n s).

(** [warm_start(constraint_row_friction &, …)], constraint_row_friction.cpp 54–66. *)
Definition warm_friction_with (f : fric) (n : row) (s : store) : store :=
  apply_irow (i_imp (f_1 f)) (f_1 f) n (apply_irow (i_imp (f_0 f)) (f_0 f) n s).
Definition warm_friction (f : fric) (rows : list row) (s : store) : res store :=
  n ← opt_res (rows !! f_idx f);
  Ok (warm_friction_with f n s).

(** Lines 26–27 and 33–34 of constraint_row_spin_friction.cpp. *)
Definition apply_spin (imp : T) (p : spin) (n : row) (s : store) : store :=
  let s := add_dw s (r_A n) (vsmul (mvmul (r_IA n) (p_J0 p)) imp) in
  add_dw s (r_B n) (vsmul (mvmul (r_IB n) (p_J1 p)) imp).

(** [solve_spin_friction] once the normal row has been found,
    constraint_row_spin_friction.cpp 5–28. *)
Definition spin_with (p : spin) (n : row) (s : store) : spin * store :=
  let max_len := p_mu p ⊙ r_imp n in
  let relvel := dot (p_J0 p) (s_dw s (r_A n)) ⊕ dot (p_J1 p) (s_dw s (r_B n)) in
  let delta := (p_rhs p ⊖ relvel) ⊙ p_eff p in
  let '(i, d) := clamp_imp (p_imp p) (p_imp p ⊕ delta) delta (nneg max_len) max_len in
  (set_pimp p i, apply_spin d p n s).
Definition solve_spin (p : spin) (rows : list row) (s : store) : res (spin * store) :=
  n ← opt_res (rows !! p_idx p);
  Ok (spin_with p n s).
(** [warm_start(constraint_row_spin_friction &, …)], 30–35. *)
Definition warm_spin (p : spin) (rows : list row) (s : store) : res store :=
  n ← opt_res (rows !! p_idx p);
  Ok (apply_spin (p_imp p) p n s).

(** The bit set of row_cache.hpp 15–17. *)
Record flags := Flags { fl_fric : bool; fl_roll : bool; fl_spin : bool }.

(** [row_cache], row_cache.hpp 23–49. *)
Record cache := Cache {
  k_rows : list row;
  k_num : list nat;      (* con_num_rows *)
  k_flags : list flags;
  k_fric : list fric; k_roll : list fric; k_spin : list spin }.
Definition empty_cache : cache := Cache [] [] [] [] [] [].

(** The loops of [solve(row_cache &)], island_solver.cpp 94–111. *)
Fixpoint solve_rows (rows : list row) (s : store) : list row * store :=
  match rows with
  | [] => ([], s)
  | r :: rows =>
      let '(r', d) := solve_row r s in
      let '(rows', s') := solve_rows rows (apply_row d r s) in
      (r' :: rows', s')
  end.
Fixpoint solve_frictions (fs : list fric) (rows : list row) (s : store)
    : res (list fric * store) :=
  match fs with
  | [] => Ok ([], s)
  | f :: fs =>
      '(f', s) ← solve_friction f rows s;
      '(fs', s) ← solve_frictions fs rows s;
      Ok (f' :: fs', s)
  end.
Fixpoint solve_spins (ps : list spin) (rows : list row) (s : store)
    : res (list spin * store) :=
  match ps with
  | [] => Ok ([], s)
  | p :: ps =>
      '(p', s) ← solve_spin p rows s;
      '(ps', s) ← solve_spins ps rows s;
      Ok (p' :: ps', s)
  end.
Definition solve_cache (k : cache) (s : store) : res (cache * store) :=
  let '(rows, s) := solve_rows (k_rows k) s in
  '(fs, s) ← solve_frictions (k_fric k) rows s;
  '(rs, s) ← solve_frictions (k_roll k) rows s;
  '(ps, s) ← solve_spins (k_spin k) rows s;
  Ok (Cache rows (k_num k) (k_flags k) fs rs ps, s).

(** The [for] loop of [run_island_solver_seq], island_solver.cpp 529–531. *)
Fixpoint iterate_cache (n : nat) (k : cache) (s : store) : res (cache * store) :=
  match n with
  | O => Ok (k, s)
  | S n => '(k, s) ← solve_cache k s; iterate_cache n k s
  end.

(** [warm_start(row_cache &)], island_solver.cpp 76–92. *)
Fixpoint warm_rows (rows : list row) (s : store) : store :=
  match rows with [] => s | r :: rows => warm_rows rows (warm_row r s) end.
Fixpoint warm_frictions (fs : list fric) (rows : list row) (s : store) : res store :=
  match fs with
  | [] => Ok s
  | f :: fs => s ← warm_friction f rows s; warm_frictions fs rows s
  end.
Fixpoint warm_spins (ps : list spin) (rows : list row) (s : store) : res store :=
  match ps with
  | [] => Ok s
  | p :: ps => s ← warm_spin p rows s; warm_spins ps rows s
  end.
Definition warm_cache (k : cache) (s : store) : res store :=
  s ← warm_frictions (k_fric k) (k_rows k) (warm_rows (k_rows k) s);
  s ← warm_frictions (k_roll k) (k_rows k) s;
  warm_spins (k_spin k) (k_rows k) s.

End model.
Notation ptr := (option nat).
Arguments vec : clear implicits. Arguments mat : clear implicits.
Arguments jac : clear implicits. Arguments store : clear implicits.
Arguments row : clear implicits. Arguments irow : clear implicits.
Arguments fric : clear implicits. Arguments spin : clear implicits.
Arguments cache : clear implicits.

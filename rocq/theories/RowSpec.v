(** Specification of the constraint solver, independent of how rows are packed.

    The reference solver keeps every row together with the constraint it
    belongs to: there is no packed array, no row index and no counter.  Each
    friction row uses the normal row it was created with. *)
From Coq Require Import Field_theory.
From Verif Require Import Outcome RowModel JointModel.

Section spec.
Context {N : num}.
Notation T := (nt N).

(** ** The impulses a row and its friction rows carry, in the order in which
    the constraint lists them. *)
Definition fric_values (f : fric N) : list T := [i_imp (f_0 f); i_imp (f_1 f)].
Definition elem_values (e : elem N) : list T :=
  r_imp (e_row e) :: from_option fric_values [] (e_fric e)
  ++ from_option fric_values [] (e_roll e)
  ++ from_option (λ p, [p_imp p]) [] (e_spin e).
Definition req_values (q : req N) : list T :=
  q_imp q :: from_option fric_values [] (q_fric q)
  ++ from_option fric_values [] (q_roll q)
  ++ from_option (λ p, [p_imp p]) [] (q_spin q).
Definition row_values (qs : list (req N)) : list T := concat (map req_values qs).

(** ** Reference iteration over rows that know their constraint. *)
Notation owned := (list ((nat * nat) * elem N)).

Definition with_row (e : elem N) (r : row N) : elem N :=
  Elem r (e_fric e) (e_roll e) (e_spin e).
Definition with_fric (e : elem N) (f : fric N) : elem N :=
  Elem (e_row e) (Some f) (e_roll e) (e_spin e).
Definition with_roll (e : elem N) (f : fric N) : elem N :=
  Elem (e_row e) (e_fric e) (Some f) (e_spin e).
Definition with_spin (e : elem N) (p : spin N) : elem N :=
  Elem (e_row e) (e_fric e) (e_roll e) (Some p).

Definition step_row (e : elem N) (s : store N) : elem N * store N :=
  let '(r, d) := solve_row (e_row e) s in (with_row e r, apply_row d (e_row e) s).
Definition step_fric (e : elem N) (s : store N) : elem N * store N :=
  match e_fric e with
  | None => (e, s)
  | Some f => let '(f, s) := friction_with f (e_row e) s in (with_fric e f, s)
  end.
Definition step_roll (e : elem N) (s : store N) : elem N * store N :=
  match e_roll e with
  | None => (e, s)
  | Some f => let '(f, s) := friction_with f (e_row e) s in (with_roll e f, s)
  end.
Definition step_spin (e : elem N) (s : store N) : elem N * store N :=
  match e_spin e with
  | None => (e, s)
  | Some p => let '(p, s) := spin_with p (e_row e) s in (with_spin e p, s)
  end.

Fixpoint sweep (f : elem N → store N → elem N * store N) (l : owned) (s : store N)
    : owned * store N :=
  match l with
  | [] => ([], s)
  | (key, e) :: l =>
      let '(e, s) := f e s in
      let '(l, s) := sweep f l s in
      ((key, e) :: l, s)
  end.

(** One velocity iteration: all rows, then friction, rolling, spinning. *)
Definition own_iteration (l : owned) (s : store N) : owned * store N :=
  let '(l, s) := sweep step_row l s in
  let '(l, s) := sweep step_fric l s in
  let '(l, s) := sweep step_roll l s in
  sweep step_spin l s.
Fixpoint own_iterate (n : nat) (l : owned) (s : store N) : owned * store N :=
  match n with
  | O => (l, s)
  | S n => let '(l, s) := own_iteration l s in own_iterate n l s
  end.

(** Warm starting: the impulses of the rows applied once, same order. *)
Definition own_warm (l : owned) (s : store N) : store N :=
  let s := foldl (λ s x, warm_row (e_row (snd x)) s) s l in
  let s := foldl (λ s x, from_option (λ f, warm_friction_with f (e_row (snd x)) s) s
                           (e_fric (snd x))) s l in
  let s := foldl (λ s x, from_option (λ f, warm_friction_with f (e_row (snd x)) s) s
                           (e_roll (snd x))) s l in
  foldl (λ s x, from_option (λ p, apply_spin (p_imp p) p (e_row (snd x)) s) s
                  (e_spin (snd x))) s l.

(** ** The rows of an island before the first iteration: by constraint type,
    then by constraint. *)
Definition prepared (dt : T) (g : nat → nat → geo N) (bodies : nat → body N)
    (key : nat * nat) (c : con N) : res (config N * list (elem N)) :=
  let A := bodies (c_a c) in
  let B := bodies (c_b c) in
  match prepare (c_cfg c) (c_imp c) dt (g (fst key) (snd key)) A B with
  | Ok (cfg, qs) => Ok (cfg, map (finish_row A B) qs)
  | AssertFail => AssertFail | UB => UB | NoFuel => NoFuel
  end.
Definition elems_of (dt : T) (g : nat → nat → geo N) (bodies : nat → body N)
    (key : nat * nat) (c : con N) : list (elem N) :=
  match prepared dt g bodies key c with Ok (_, es) => es | _ => [] end.
Definition island_rows (es : list nat) (dt : T) (g : nat → nat → geo N)
    (bodies : nat → body N) (cs : consmap N) : owned :=
  concat (map (λ t, concat (map (λ e,
    match cs !! (e, t) with
    | Some c => map (pair (e, t)) (elems_of dt g bodies (e, t) c)
    | None => []
    end) es)) (seq 0 num_kinds)).

(** The impulses the rows of one constraint carry. *)
Definition own_values (l : owned) (key : nat * nat) : list T :=
  concat (map (λ x, elem_values (snd x)) (filter (λ x, fst x = key) l)).

(** ** When one step of an island is well defined: every [prepare] passes its
    asserts; the rows of the constraints of one entity fit its cache; it has at
    most eight constraints; a point constraint with friction torque connects
    bodies with a relative angular velocity. *)
Definition spinning (g : geo N) (c : config N) : Prop :=
  match c with KPoint t => (n0 <? t) = true → g_spin g = true | _ => True end.
Definition con_wf (dt : T) (g : nat → nat → geo N) (bodies : nat → body N)
    (key : nat * nat) (c : con N) : Prop :=
  kind (c_cfg c) = snd key ∧ length (c_imp c) = slots (c_cfg c)
  ∧ (∃ r, prepared dt g bodies key c = Ok r)
  ∧ spinning (g (fst key) (snd key)) (c_cfg c).
Definition entity_cons (cs : consmap N) (e : nat) : list (nat * con N) :=
  omap (λ t, c ← cs !! (e, t); Some (t, c)) (seq 0 num_kinds).
Definition entity_fits (dt : T) (g : nat → nat → geo N) (bodies : nat → body N)
    (cs : consmap N) (e : nat) : Prop :=
  length (entity_cons cs e) ≤ 8
  ∧ length (concat (map (λ x, elems_of dt g bodies (e, fst x) (snd x)) (entity_cons cs e))) ≤ 16.
Definition island_fits (es : list nat) (dt : T) (g : nat → nat → geo N)
    (bodies : nat → body N) (cs : consmap N) : Prop :=
  NoDup es
  ∧ (∀ e t c, e ∈ es → cs !! (e, t) = Some c → t < num_kinds ∧ con_wf dt g bodies (e, t) c)
  ∧ (∀ e, e ∈ es → entity_fits dt g bodies cs e).

(** ** Bounds.  [le x y] is "[y < x] is false"; for numbers without NaN this is
    the order. *)
Definition le (x y : T) : Prop := (y <? x) = false.

Definition row_bounded (r : row N) : Prop := le (r_lo r) (r_imp r) ∧ le (r_imp r) (r_up r).
(** The friction circle: squared length against squared limit. *)
Definition fric_bounded (f : fric N) (n : row N) : Prop :=
  le (i_imp (f_0 f) ⊙ i_imp (f_0 f) ⊕ i_imp (f_1 f) ⊙ i_imp (f_1 f))
     ((f_mu f ⊙ r_imp n) ⊙ (f_mu f ⊙ r_imp n)).
Definition spin_bounded (p : spin N) (n : row N) : Prop :=
  le (nneg (p_mu p ⊙ r_imp n)) (p_imp p) ∧ le (p_imp p) (p_mu p ⊙ r_imp n).

(** Two rows that differ at most in their impulses. *)
Definition same_irow (a b : irow N) : Prop := i_J a = i_J b ∧ i_eff a = i_eff b ∧ i_rhs a = i_rhs b.
Definition same_fric (a b : fric N) : Prop :=
  same_irow (f_0 a) (f_0 b) ∧ same_irow (f_1 a) (f_1 b) ∧ f_mu a = f_mu b.
Definition same_spin (a b : spin N) : Prop :=
  p_J0 a = p_J0 b ∧ p_J1 a = p_J1 b ∧ p_eff a = p_eff b ∧ p_rhs a = p_rhs b ∧ p_mu a = p_mu b.
Definition same_row (a b : row N) : Prop := set_imp a n0 = set_imp b n0.
Definition same_elem (a b : elem N) : Prop :=
  same_row (e_row a) (e_row b)
  ∧ option_Forall2 same_fric (e_fric a) (e_fric b)
  ∧ option_Forall2 same_fric (e_roll a) (e_roll b)
  ∧ option_Forall2 same_spin (e_spin a) (e_spin b).

End spec.
Notation owned N := (list ((nat * nat) * elem N)).

(** ** Laws a number type may have. *)
(** Order: no number is below itself.  Floats, NaN included, satisfy this. *)
Definition irreflexive (N : num) : Prop := ∀ x : N, (x <? x) = false.

(** Exact arithmetic: an ordered field; [nsqrt] is the square root of every
    number that is not negative; [EDYN_EPSILON] is positive. *)
Record exact (N : num) : Prop := {
  ex_field : field_theory (R := N) n0 n1 nadd nmul nsub nneg ndiv (ndiv n1) eq;
  ex_irr : irreflexive N;
  ex_trans : ∀ x y z : N, (x <? y) = true → (y <? z) = true → (x <? z) = true;
  ex_total : ∀ x y : N, (x <? y) = false → (y <? x) = false → x = y;
  ex_add : ∀ x y z : N, (x <? y) = true → (x ⊕ z <? y ⊕ z) = true;
  ex_mul : ∀ x y : N, (n0 <? x) = true → (n0 <? y) = true → (n0 <? x ⊙ y) = true;
  ex_eps : (n0 <? neps (n := N)) = true }.
Definition has_sqrt (N : num) : Prop :=
  ∀ x : N, (x <? n0) = false → (nsqrt x <? n0) = false ∧ nsqrt x ⊙ nsqrt x = x.

(** ** What the impulses of a set of rows do to a body, in exact arithmetic. *)
Section velocity.
Context {N : num}.
Notation T := (nt N).

(** The impulses of an element: Jacobian and accumulated impulse. *)
Definition fric_pushes (f : fric N) : list (jac N * T) :=
  [(i_J (f_0 f), i_imp (f_0 f)); (i_J (f_1 f), i_imp (f_1 f))].
Definition pushes (e : elem N) : list (jac N * T) :=
  (r_J (e_row e), r_imp (e_row e)) :: from_option fric_pushes [] (e_fric e)
  ++ from_option fric_pushes [] (e_roll e)
  ++ from_option (λ p, [(Jac vzero (p_J0 p) vzero (p_J1 p), p_imp p)]) [] (e_spin e).

(** Change of the linear and angular velocity of the body [p] by one impulse
    acting between the two bodies of the row [n]: inverse mass times Jacobian
    times impulse. *)
Definition push_lin (n : row N) (p : ptr) (x : jac N * T) : vec N :=
  vadd (if decide (p = r_A n) then vsmul (svmul (r_imA n) (j0 (fst x))) (snd x) else vzero)
       (if decide (p = r_B n) then vsmul (svmul (r_imB n) (j2 (fst x))) (snd x) else vzero).
Definition push_ang (n : row N) (p : ptr) (x : jac N * T) : vec N :=
  vadd (if decide (p = r_A n) then vsmul (mvmul (r_IA n) (j1 (fst x))) (snd x) else vzero)
       (if decide (p = r_B n) then vsmul (mvmul (r_IB n) (j3 (fst x))) (snd x) else vzero).
Definition vsum (l : list (vec N)) : vec N := foldr vadd vzero l.
Definition elem_lin (p : ptr) (e : elem N) : vec N := vsum (map (push_lin (e_row e) p) (pushes e)).
Definition elem_ang (p : ptr) (e : elem N) : vec N := vsum (map (push_ang (e_row e) p) (pushes e)).
Definition total_lin (l : owned N) (p : ptr) : vec N := vsum (map (λ x, elem_lin p (snd x)) l).
Definition total_ang (l : owned N) (p : ptr) : vec N := vsum (map (λ x, elem_ang p (snd x)) l).

(** Linear momentum of the bodies [ps] with masses [m] and velocities [v]. *)
Definition momentum (m : nat → T) (ps : list nat) (v : ptr → vec N) : vec N :=
  vsum (map (λ p, svmul (m p) (v (Some p))) ps).
End velocity.

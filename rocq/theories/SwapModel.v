(** Model of the exchange of the two bodies:
    - collision_result::swap, collision_point::swap (include/edyn/collision/collision_result.hpp:23-46),
    - swap_manifold (src/edyn/util/constraint_util.cpp:104-131),
    - flip_contact_point, flip_contact_point_geom
      (src/edyn/networking/util/import_contact_manifolds.cpp:17-26). *)
From Verif Require Import Outcome PointModel.

(** contact_normal_attachment.hpp:16-20 *)
Inductive att := AttNone | AttA | AttB.
(** Everything of a point besides the pivots.  [x_local] is
    contact_point_geometry::local_normal; a collision result has none. *)
Record rest (N Sc F : Type) := Rest { x_normal : N; x_dist : Sc; x_att : att; x_fa : option F; x_fb : option F; x_local : N }.
Arguments Rest {_ _ _} _ _ _ _ _ _.
Arguments x_normal {_ _ _} _. Arguments x_dist {_ _ _} _. Arguments x_att {_ _ _} _.
Arguments x_fa {_ _ _} _. Arguments x_fb {_ _ _} _. Arguments x_local {_ _ _} _.

Section swap.
Context {V N Sc F : Type} (neg : N → N).
Notation point := (rpoint V (rest N Sc F)).

(** collision_result.hpp:27-31 and constraint_util.cpp:117-121 *)
Definition swap_att (a : att) : att := match a with AttA => AttB | AttB => AttA | AttNone => AttNone end.
(** collision_result.hpp:23-34.  The same assignments as constraint_util.cpp:112-121:
    the local normal is left alone. *)
Definition swap_point (p : point) : point :=
  let x := rp_rest p in
  RP (rp_b p) (rp_a p) (Rest (neg (x_normal x)) (x_dist x) (swap_att (x_att x)) (x_fb x) (x_fa x) (x_local x)).
(** collision_result.hpp:40-46: only the first num_points points *)
Definition swap_result (r : cresult V (rest N Sc F)) : cresult V (rest N Sc F) :=
  CRes (rs_num r) (imap (λ i p, if decide (i < rs_num r) then swap_point p else p) (rs_pts r)).

(** import_contact_manifolds.cpp:22-26 *)
Definition flip_att (a : att) : att := match a with AttA => AttB | _ => AttA end.
(** import_contact_manifolds.cpp:17-26 *)
Definition flip_point (p : point) : point :=
  let x := rp_rest p in
  RP (rp_b p) (rp_a p) (Rest (neg (x_normal x)) (x_dist x) (flip_att (x_att x)) (x_fb x) (x_fa x) (x_local x)).

(** Bodies of the manifolds and of the contact constraints. *)
Record mreg := MReg { mr_reg : preg V (rest N Sc F); mr_body : gmap nat (nat * nat); mr_con : gmap nat (nat * nat) }.
(** constraint_util.cpp:111-130: one point.  contact_constraint and
    contact_extras_constraint are treated alike. *)
Definition swap_visit (body : nat * nat) (s : mreg) (e : nat) : res mreg :=
  c ← opt_res (pr_cp (mr_reg s) !! e);
  let r := mr_reg s in
  Ok (MReg (PReg (<[e := CP (cp_parent c) (cp_next c) (swap_point (cp_pt c)) (cp_life c)]> (pr_cp r)) (pr_man r) (pr_fresh r))
           (mr_body s) (alter (λ _, body) e (mr_con s))).
(** constraint_util.cpp:104-131 *)
Definition swap_manifold (s : mreg) (m : nat) : res mreg :=
  '(_, h) ← opt_res (pr_man (mr_reg s) !! m);
  '(a, b) ← opt_res (mr_body s !! m);
  for_each (size (pr_cp (mr_reg s))) (λ s e, c ← opt_res (pr_cp (mr_reg s) !! e); Ok (cp_next c)) (swap_visit (b, a))
    (MReg (mr_reg s) (<[m := (b, a)]> (mr_body s)) (mr_con s)) h.
End swap.

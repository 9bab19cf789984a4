(** vector3 and AABB: include/edyn/math/vector3.hpp, include/edyn/comp/aabb.hpp
    and the box tests of src/edyn/math/geom.cpp, over an arbitrary scalar type
    given by its C++ operators. *)
From Verif Require Import Outcome.
From Coq Require Import QArith Qabs.

Record vec (R : Type) := V3 { vx : R; vy : R; vz : R }.
Arguments V3 {_} _ _ _.
Arguments vx {_} _.
Arguments vy {_} _.
Arguments vz {_} _.

(** aabb.hpp:12-14 *)
Record aabb (R : Type) := Box { bmin : vec R; bmax : vec R }.
Arguments Box {_} _ _.
Arguments bmin {_} _.
Arguments bmax {_} _.

Section box.
Context {R : Type} (leb ltb : R → R → bool) (add sub mul : R → R → R) (two half : R).

(** std::min and std::max (C++ [alg.min.max]): the first argument on ties. *)
Definition smin (a b : R) : R := if ltb b a then b else a.
Definition smax (a b : R) : R := if ltb a b then b else a.

(** vector3.hpp:52-107 (componentwise operators), 261-268 *)
Definition vadd (v w : vec R) : vec R := V3 (add (vx v) (vx w)) (add (vy v) (vy w)) (add (vz v) (vz w)).
Definition vsub (v w : vec R) : vec R := V3 (sub (vx v) (vx w)) (sub (vy v) (vy w)) (sub (vz v) (vz w)).
Definition vscale (v : vec R) (s : R) : vec R := V3 (mul (vx v) s) (mul (vy v) s) (mul (vz v) s).
Definition vmin (v w : vec R) : vec R := V3 (smin (vx v) (vx w)) (smin (vy v) (vy w)) (smin (vz v) (vz w)).
Definition vmax (v w : vec R) : vec R := V3 (smax (vx v) (vx w)) (smax (vy v) (vy w)) (smax (vz v) (vz w)).
(** vector3.hpp:186-188 *)
Definition vle (v w : vec R) : bool := leb (vx v) (vx w) && leb (vy v) (vy w) && leb (vz v) (vz w).

(** aabb.hpp:16-18 *)
Definition bx_inset (b : aabb R) (v : vec R) : aabb R := Box (vadd (bmin b) v) (vsub (bmax b) v).
(** aabb.hpp:20-22 *)
Definition bx_center (b : aabb R) : vec R := vscale (vadd (bmin b) (bmax b)) half.
(** aabb.hpp:29-32 *)
Definition bx_area (b : aabb R) : R :=
  let d := vsub (bmax b) (bmin b) in
  mul two (add (add (mul (vx d) (vy d)) (mul (vy d) (vz d))) (mul (vz d) (vx d))).
(** aabb.hpp:35-37 *)
Definition bx_contains_pt (b : aabb R) (p : vec R) : bool := vle (bmin b) p && vle p (bmax b).
(** aabb.hpp:40-42 *)
Definition bx_contains (b c : aabb R) : bool := bx_contains_pt b (bmin c) && bx_contains_pt b (bmax c).
(** aabb.hpp:50-55 *)
Definition bx_enclose (b c : aabb R) : aabb R := Box (vmin (bmin b) (bmin c)) (vmax (bmax b) (bmax c)).
(** geom.cpp:762-770, aabb.hpp:45-47 *)
Definition bx_intersect (b c : aabb R) : bool :=
  leb (vx (bmin b)) (vx (bmax c)) && leb (vx (bmin c)) (vx (bmax b)) &&
  leb (vy (bmin b)) (vy (bmax c)) && leb (vy (bmin c)) (vy (bmax b)) &&
  leb (vz (bmin b)) (vz (bmax c)) && leb (vz (bmin c)) (vz (bmax b)).
End box.

(** [<=] and [<] of the scalar type form a total order (no NaN). *)
Record total_order {R : Type} (leb ltb : R → R → bool) : Prop := {
  to_total : ∀ a b, leb a b = true ∨ leb b a = true;
  to_trans : ∀ a b c, leb a b = true → leb b c = true → leb a c = true;
  to_lt : ∀ a b, ltb a b = negb (leb b a) }.

(** geom.cpp:1185-1223, over the rationals: no rounding.  [eps] is EDYN_EPSILON. *)
Definition seg_axis (m h e : Q) : bool := Qle_bool (Qabs m) (h + e).
Definition seg_cross (m1 m2 d1 d2 h1 h2 e1 e2 : Q) : bool :=
  Qle_bool (Qabs (m1 * d2 - m2 * d1)) (h1 * e2 + h2 * e1).
Definition seg_box (eps : Q) (p0 p1 : vec Q) (b : aabb Q) : bool :=
  let half := (1 # 2)%Q in
  let ctr := vscale Qmult (vadd Qplus (bmin b) (bmax b)) half in
  let h := vsub Qminus (bmax b) ctr in
  let mid0 := vscale Qmult (vadd Qplus p0 p1) half in
  let d := vsub Qminus p1 mid0 in
  let m := vsub Qminus mid0 ctr in
  let e := V3 (Qabs (vx d)) (Qabs (vy d)) (Qabs (vz d)) in
  if negb (seg_axis (vx m) (vx h) (vx e)) then false
  else if negb (seg_axis (vy m) (vy h) (vy e)) then false
  else if negb (seg_axis (vz m) (vz h) (vz e)) then false
  else
    let e := V3 (vx e + eps) (vy e + eps) (vz e + eps) in
    if negb (seg_cross (vy m) (vz m) (vy d) (vz d) (vy h) (vz h) (vy e) (vz e)) then false
    else if negb (seg_cross (vz m) (vx m) (vz d) (vx d) (vz h) (vx h) (vz e) (vx e)) then false
    else if negb (seg_cross (vx m) (vy m) (vx d) (vy d) (vx h) (vy h) (vx e) (vy e)) then false
    else true.

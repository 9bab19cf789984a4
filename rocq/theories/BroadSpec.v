(** Specification of the broadphase: the calls a user may make, which bodies have
    an AABB the trees have not been told about, and the histories. *)
From Verif Require Import BroadModel.

Section spec.
Context (G : geom) (ord : gset nat → list nat).
Notation box := (aabb (g_T G)).

(** No manifold has [e] as one of its bodies. *)
Definition no_manifold (w : bw G) (e : nat) : Prop :=
  ∀ m a b, mm_body (b_man G w) !! m = Some (a, b) → a ≠ e ∧ b ≠ e.
Definition is_manifold (w : bw G) (m : nat) : Prop := is_Some (mm_body (b_man G w) !! m).

(** Calls are made on entities that exist; a shape is added to a body without one
    and not twice between two updates; a shape is removed from a body that has no
    manifold. *)
Definition legal (w : bw G) (o : bop G) : Prop :=
  match o with
  | AddShape _ e _ =>
    e ∈ b_valid G w ∧ b_aabb G w !! e = None ∧ e ∉ b_new G w ∧ ¬ is_manifold w e
  | DropShape _ e => is_Some (b_aabb G w !! e) ∧ no_manifold w e
  | DelBody _ e | SetKind _ e _ => e ∈ b_valid G w ∧ ¬ is_manifold w e
  | SetAabb _ e _ => is_Some (b_aabb G w !! e)
  | DelManifold _ m | SwapManifold _ m => is_manifold w m
  | _ => True
  end.

(** The bodies whose AABB changed since it was last put in a tree.  An update
    takes in the AABBs of the dynamic and kinematic bodies that are awake and
    enabled; a change between dynamic and not dynamic takes in the AABB. *)
Definition movers (w : bw G) : gset nat := (b_proc G w ∪ b_kin G w) ∖ b_off G w.
Definition stale_step (w : bw G) (st : gset nat) (o : bop G) : gset nat :=
  match o with
  | SetAabb _ e _ => if decide (is_Some (b_res G w !! e)) then {[e]} ∪ st else st
  | DropShape _ e | DelBody _ e => st ∖ {[e]}
  | SetKind _ e k =>
    match b_res G w !! e with
    | Some (_, p) => if decide (p = kind_proc k) then st else st ∖ {[e]}
    | None => st
    end
  | Update _ _ _ => st ∖ movers w
  | _ => st
  end.

Inductive breach : bw G → gset nat → Prop :=
| br_empty : breach (b_empty G) ∅
| br_step w st o w' :
    breach w st → legal w o → bstep G ord w o = Ok w' → breach w' (stale_step w st o).

(** The two bodies may collide: their AABBs meet when the first is grown by the
    margin [v]. *)
Definition near (v : vec (g_T G)) (w : bw G) (a b : nat) : Prop :=
  ∃ ba bb, b_aabb G w !! a = Some ba ∧ b_aabb G w !! b = Some bb ∧
    touch G (bx_inset (g_add G) (g_sub G) ba v) bb = true.
(** Awake, enabled, dynamic and with an AABB *)
Definition active (w : bw G) (a : nat) : Prop :=
  a ∈ b_proc G w ∧ a ∉ b_off G w ∧ is_Some (b_aabb G w !! a).
(** Some manifold joins the two bodies. *)
Definition joined (w : bw G) (a b : nat) : Prop :=
  ∃ m, mm_body (b_man G w) !! m = Some (a, b) ∨ mm_body (b_man G w) !! m = Some (b, a).

(** What the margins must satisfy: growing by them does grow, and the separation
    margin is at least the query margin. *)
Definition grows (v : vec (g_T G)) : Prop := ∀ x,
  g_leb G (g_add G x (vx v)) x = true ∧ g_leb G x (g_sub G x (vx v)) = true ∧
  g_leb G (g_add G x (vy v)) x = true ∧ g_leb G x (g_sub G x (vy v)) = true ∧
  g_leb G (g_add G x (vz v)) x = true ∧ g_leb G x (g_sub G x (vz v)) = true.
Definition wider (v u : vec (g_T G)) : Prop := ∀ x,
  g_leb G (g_add G x (vx v)) (g_add G x (vx u)) = true ∧ g_leb G (g_sub G x (vx u)) (g_sub G x (vx v)) = true ∧
  g_leb G (g_add G x (vy v)) (g_add G x (vy u)) = true ∧ g_leb G (g_sub G x (vy u)) (g_sub G x (vy v)) = true ∧
  g_leb G (g_add G x (vz v)) (g_add G x (vz u)) = true ∧ g_leb G (g_sub G x (vz u)) (g_sub G x (vz v)) = true.
End spec.

(** Triangle meshes: src/edyn/shapes/triangle_mesh.cpp,
    include/edyn/shapes/triangle_mesh.hpp.

    Simplifications: scalars are real numbers (see GeoModel.v); indices are
    natural numbers, the null index [idx_max] is [None].  The tree is in
    StaticModel.v.  [m_vertex_edge_indices] is not kept: only the serialization
    reads it. *)
From Verif Require Import Outcome BoxModel GeoModel NearModel.
From Coq Require Import Reals.
Local Open Scope nat_scope.

(** triangle_mesh.hpp:208: three indices of vertices *)
Notation tri := (nat * nat * nat)%type.
(** A side as the loops of triangle_mesh.cpp:33-37 visit it: face and indices *)
Notation side := (nat * nat * nat)%type.

(** unordered_pair.hpp:28-31 *)
Definition same_pair (p q : nat * nat) : bool :=
  ((p.1 =? q.1) && (p.2 =? q.2)) || ((p.1 =? q.2) && (p.2 =? q.1)).

(** The sides in the order of the nested loops of triangle_mesh.cpp:33-37 and
    100-101; side [i] of face [f] is number [3 f + i]. *)
Definition sides_of (f : nat) (t : tri) : list side :=
  let '(a, b, c) := t in [(f, a, b); (f, b, c); (f, c, a)].
Fixpoint sides (f : nat) (ts : list tri) : list side :=
  match ts with [] => [] | t :: ts => sides_of f t ++ sides (S f) ts end.

(** m_edge_vertex_indices, m_edge_face_indices, and m_face_edge_indices by
    number of the side *)
Record edges := Edges { e_pairs : list (nat * nat); e_faces : list (option nat * option nat); e_of : list nat }.
(** triangle_mesh.cpp:42-47 *)
Definition find_edge (p : nat * nat) (l : list (nat * nat)) : option nat :=
  fst <$> list_find (λ q, same_pair q p = true) l.
(** triangle_mesh.cpp:62-68 *)
Definition note_face (f : nat) (ab : option nat * option nat) : option nat * option nat :=
  match ab.1 with
  | None => (Some f, ab.2)
  | Some a => if f =? a then ab else (Some a, Some f)
  end.
(** triangle_mesh.cpp:38-68; an index out of range is undefined behaviour in
    lines 55-56 *)
Definition add_side (nv : nat) (s : edges) (x : side) : res edges :=
  let '(f, i0, i1) := x in
  match find_edge (i0, i1) (e_pairs s) with
  | Some k =>
    _ ← require_ ((i0 <? nv) && (i1 <? nv));
    Ok (Edges (e_pairs s) (alter (note_face f) k (e_faces s)) (e_of s ++ [k]))
  | None =>
    let k := length (e_pairs s) in
    _ ← require_ ((i0 <? nv) && (i1 <? nv));
    Ok (Edges (e_pairs s ++ [(i0, i1)]) (alter (note_face f) k (e_faces s ++ [(None, None)])) (e_of s ++ [k]))
  end.
Fixpoint add_sides (nv : nat) (s : edges) (l : list side) : res edges :=
  match l with
  | [] => Ok s
  | x :: l => s ← add_side nv s x; add_sides nv s l
  end.
(** triangle_mesh.cpp:83-95: faces of the edge, and whether it is at the boundary *)
Fixpoint close_edges (l : list (option nat * option nat)) : res (list (nat * nat * bool)) :=
  match l with
  | [] => Ok []
  | ab :: l =>
    match ab.1 with
    | None => AssertFail
    | Some a =>
      r ← close_edges l;
      Ok (match ab.2 with None => (a, a, true) | Some b => (a, b, false) end :: r)
    end
  end.

Local Open Scope R_scope.
Definition at_ {A} (l : list A) (i : nat) : res A := opt_res (l !! i).
Fixpoint res_map {A B} (f : A → res B) (l : list A) : res (list B) :=
  match l with
  | [] => Ok []
  | x :: l => y ← f x; r ← res_map f l; Ok (y :: r)
  end.
(** triangle_mesh.cpp:17-26 *)
Definition face_normal (vs : list v3) (t : tri) : res v3 :=
  let '(a, b, c) := t in
  va ← at_ vs a; vb ← at_ vs b; vc ← at_ vs c;
  normalize3 (cross3 (sub3 vb va) (sub3 vc vb)).

(** The mesh; adjacent normals by number of the side *)
Record mesh := Mesh {
  m_vertices : list v3; m_tris : list tri; m_normals : list v3;
  m_pairs : list (nat * nat); m_of : list nat; m_ends : list (nat * nat * bool);
  m_adjacent : list v3; m_convex : list bool }.

(** triangle_mesh.cpp:102-124: adjacent normal of a side, its edge and what is
    written as its convexity *)
Definition adjacent (vs normals : list v3) (ends : list (nat * nat * bool)) (sk : side * nat)
    : res (v3 * (nat * bool)) :=
  let '((f, i0, i1), k) := sk in
  e ← at_ ends k;
  let '(a, b, _) := e in
  let other := if (a =? f)%nat then b else a in
  v0 ← at_ vs i0;
  v1 ← at_ vs i1;
  n ← at_ normals f;
  let edge_normal := cross3 n (sub3 v1 v0) in
  if (other =? f)%nat then
    adj ← normalize3 (add3 n (scl (1 / 10) edge_normal));
    Ok (neg3 adj, (k, true))
  else
    other_normal ← at_ normals other;
    Ok (other_normal, (k, rltb (dot3 other_normal edge_normal) (- eps))).
(** triangle_mesh.cpp:9-15 without the tree *)
Definition initialize (vs : list v3) (ts : list tri) : res mesh :=
  normals ← res_map (face_normal vs) ts;
  s ← add_sides (length vs) (Edges [] [] []) (sides 0 ts);
  ends ← close_edges (e_faces s);
  r ← res_map (adjacent vs normals ends) (zip (sides 0 ts) (e_of s));
  Ok (Mesh vs ts normals (e_pairs s) (e_of s) ends (map fst r)
        (foldl (λ l kc, <[kc.1 := kc.2]> l) (replicate (length (e_pairs s)) false) (map snd r))).

(** triangle_mesh.cpp:240-261 *)
Definition barycentric (v0 v1 v2 normal point : v3) : res (R * R * R) :=
  let edge_normal0 := cross3 (sub3 v2 v1) normal in
  t0 ← rdiv (dot3 (sub3 point v1) edge_normal0) (dot3 (sub3 v0 v1) edge_normal0);
  let edge_normal1 := cross3 (sub3 v0 v2) normal in
  t1 ← rdiv (dot3 (sub3 point v2) edge_normal1) (dot3 (sub3 v1 v2) edge_normal1);
  Ok (t0, t1, 1 - t0 - t1).
Definition barycentric_coordinates (m : mesh) (f : nat) (point : v3) : res (R * R * R) :=
  _ ← assert_ (f <? length (m_tris m))%nat;
  t ← at_ (m_tris m) f;
  let '(a, b, c) := t in
  v0 ← at_ (m_vertices m) a; v1 ← at_ (m_vertices m) b; v2 ← at_ (m_vertices m) c;
  _ ← assert_ (f <? length (m_normals m))%nat;
  n ← at_ (m_normals m) f;
  barycentric v0 v1 v2 n point.
(** get_vertex_friction, get_vertex_restitution: triangle_mesh.cpp:157-160, 189-192 *)
Definition vertex_value (l : list R) (v : nat) : res R :=
  _ ← assert_ (v <? length l)%nat;
  at_ l v.
(** get_face_friction, get_face_restitution: triangle_mesh.cpp:174-179, 206-211,
    263-267 *)
Definition face_value (m : mesh) (l : list R) (f : nat) (point : v3) : res R :=
  t ← at_ (m_tris m) f;
  let '(a, b, c) := t in
  f0 ← vertex_value l a; f1 ← vertex_value l b; f2 ← vertex_value l c;
  w ← barycentric_coordinates m f point;
  let '(t0, t1, t2) := w in
  Ok (t0 * f0 + t1 * f1 + t2 * f2).
(** get_edge_friction, get_edge_restitution with a fraction:
    triangle_mesh.cpp:162-166, 194-198 *)
Definition edge_value (m : mesh) (l : list R) (k : nat) (fraction : R) : res R :=
  p ← at_ (m_pairs m) k;
  f0 ← vertex_value l p.1; f1 ← vertex_value l p.2;
  Ok (f0 * (1 - fraction) + f1 * fraction).
(** The same at a point: triangle_mesh.cpp:168-172, 200-204 *)
Definition edge_value_at (m : mesh) (l : list R) (k : nat) (point : v3) : res R :=
  _ ← assert_ (k <? length (m_pairs m))%nat;
  p ← at_ (m_pairs m) k;
  v0 ← at_ (m_vertices m) p.1; v1 ← at_ (m_vertices m) p.2;
  fraction ← rdiv (dsq point v0) (dsq v1 v0);
  edge_value m l k fraction.

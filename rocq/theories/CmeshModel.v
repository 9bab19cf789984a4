(** Convex meshes: src/edyn/shapes/convex_mesh.cpp,
    include/edyn/shapes/convex_mesh.hpp.

    Simplifications: scalars are real numbers (see GeoModel.v); indices are
    natural numbers, the null index is [None]; pairs of consecutive elements of
    [faces], [edges] and [edge_faces] are pairs.  [edge_vertices],
    [edge_normals] and [relevant_normals] are not kept: they repeat vertices and
    normals at indices that are kept.  The shift to the centroid is in
    MassModel.v. *)
From Verif Require Import Outcome BoxModel GeoModel NearModel TmeshModel.
From Coq Require Import Reals.
Local Open Scope nat_scope.

Record cmesh := CMesh {
  c_vertices : list v3; c_indices : list nat; c_faces : list (nat * nat);
  c_normals : list v3; c_edges : list (nat * nat); c_efaces : list (nat * option nat);
  c_relevant_faces : list nat; c_relevant_edges : list nat;
  c_start : list nat; c_neighbors : list nat }.

(** convex_mesh.cpp:97-110: the loop over [j] *)
Fixpoint second_side (vs : list v3) (ix : list nat) (first count : nat) (e : v3) (js : list nat) : res v3 :=
  match js with
  | [] => Ok ey
  | j :: js =>
    i2 ← at_ ix (first + j);
    i3 ← at_ ix (first + (j + 1) mod count);
    v2 ← at_ vs i2;
    v3 ← at_ vs i3;
    match try_normalize (cross3 e (sub3 v3 v2)) with
    | Some n => Ok n
    | None => second_side vs ix first count e js
    end
  end.
(** convex_mesh.cpp:86-117; a normalized vector is not zero (lines 112-114) *)
Definition cface_normal (vs : list v3) (ix : list nat) (face : nat * nat) : res v3 :=
  let '(first, count) := face in
  i0 ← at_ ix first;
  i1 ← at_ ix (first + 1);
  v0 ← at_ vs i0;
  v1 ← at_ vs i1;
  second_side vs ix first count (sub3 v1 v0) (seq 1 (count - 1)).

(** The sides in the order of the loops of convex_mesh.cpp:128-135.  The model
    reads all indices before it looks for edges: if an index is out of range it
    is undefined behaviour even where an assertion fails before. *)
Definition cside (ix : list nat) (f first count j : nat) : res side :=
  i0 ← at_ ix (first + j);
  i1 ← at_ ix (first + (j + 1) mod count);
  Ok (f, i0, i1).
Fixpoint csides (ix : list nat) (f : nat) (faces : list (nat * nat)) : res (list side) :=
  match faces with
  | [] => Ok []
  | (first, count) :: faces =>
    l ← res_map (cside ix f first count) (seq 0 count);
    r ← csides ix (S f) faces;
    Ok (l ++ r)
  end.
(** convex_mesh.cpp:136-173 *)
Definition cadd (nv : nat) (s : list (nat * nat) * list (nat * option nat)) (x : side)
    : res (list (nat * nat) * list (nat * option nat)) :=
  let '(f, i0, i1) := x in
  match find_edge (i0, i1) s.1 with
  | Some k =>
    ab ← at_ s.2 k;
    _ ← assert_ (match ab.2 with None => true | Some _ => false end);
    Ok (s.1, <[k := (ab.1, Some f)]> s.2)
  | None =>
    _ ← require_ ((i0 <? nv) && (i1 <? nv));
    Ok (s.1 ++ [(i0, i1)], s.2 ++ [(f, None)])
  end.
Fixpoint cadds (nv : nat) (s : list (nat * nat) * list (nat * option nat)) (l : list side)
    : res (list (nat * nat) * list (nat * option nat)) :=
  match l with
  | [] => Ok s
  | x :: l => s ← cadd nv s x; cadds nv s l
  end.

(** convex_mesh.cpp:182-192: other ends of the edges of a vertex *)
Definition other_end (v : nat) (e : nat * nat) : option nat :=
  if (e.1 =? v) || (e.2 =? v) then Some (if e.1 =? v then e.2 else e.1) else None.
Definition ends_of (v : nat) (edges : list (nat * nat)) : list nat := omap (other_end v) edges.
(** convex_mesh.cpp:176-196; the lists are not cleared first *)
Definition add_neighbors (nv : nat) (edges : list (nat * nat)) (start neighbors : list nat) : list nat * list nat :=
  let '(st, ns, _) := foldl (λ acc v,
    let '(st, ns, n) := acc in
    let l := ends_of v edges in
    (st ++ [n + length l], ns ++ l, n + length l)) (start ++ [0], neighbors, 0) (seq 0 nv) in (st, ns).

Local Open Scope R_scope.
(** constants.hpp:75, 80 *)
Definition relevant_tolerance : R := 6 / 10000.
Definition flat_tolerance : R := 5 / 1000.
(** convex_mesh.cpp:198-213: an index joins the list if it is like none in it *)
Definition add_relevant (like : v3 → v3 → bool) (dirs : list v3) (acc : list nat) (i : nat) : list nat :=
  match dirs !! i with
  | None => acc
  | Some d => if existsb (λ j, match dirs !! j with Some d' => like d d' | None => false end) acc then acc else acc ++ [i]
  end.
Definition like_normal (a b : v3) : bool := negb (rltb (dot3 a b) (1 - relevant_tolerance)).
(** convex_mesh.cpp:223: parallel in either direction *)
Definition like_edge (a b : v3) : bool := negb (rltb (Rabs (dot3 a b)) (1 - relevant_tolerance)).
Definition relevant (like : v3 → v3 → bool) (dirs : list v3) (acc : list nat) : list nat :=
  foldl (add_relevant like dirs) acc (seq 0 (length dirs)).
(** convex_mesh.cpp:220: each edge is normalized before it is compared *)
Definition edge_dir (vs : list v3) (e : nat * nat) : res v3 :=
  a ← at_ vs e.1; b ← at_ vs e.2; normalize3 (sub3 b a).

(** update_calculated_properties: convex_mesh.cpp:16-22 *)
Definition cupdate (m : cmesh) : res cmesh :=
  normals ← res_map (cface_normal (c_vertices m) (c_indices m)) (c_faces m);
  l ← csides (c_indices m) 0 (c_faces m);
  s ← cadds (length (c_vertices m)) ([], []) l;
  let st := add_neighbors (length (c_vertices m)) s.1 (c_start m) (c_neighbors m) in
  let rf := relevant like_normal normals (c_relevant_faces m) in
  dirs ← res_map (edge_dir (c_vertices m)) s.1;
  let re := relevant like_edge dirs (c_relevant_edges m) in
  Ok (CMesh (c_vertices m) (c_indices m) (c_faces m) normals s.1 s.2 rf re st.1 st.2).

(** validate: convex_mesh.cpp:233-272 *)
Fixpoint res_all {A} (f : A → res bool) (l : list A) : res bool :=
  match l with
  | [] => Ok true
  | x :: l => b ← f x; if (b : bool) then res_all f l else Ok false
  end.
Definition flat_face (m : cmesh) (i : nat) : res bool :=
  n ← at_ (c_normals m) i;
  face ← at_ (c_faces m) i;
  let '(first, count) := face in
  i0 ← at_ (c_indices m) first;
  v0 ← at_ (c_vertices m) i0;
  res_all (λ j, ij ← at_ (c_indices m) (first + j); vj ← at_ (c_vertices m) ij;
                Ok (negb (rltb flat_tolerance (Rabs (dot3 (sub3 vj v0) n))))) (seq 1 (count - 1)).
Definition outer_face (m : cmesh) (i : nat) : res bool :=
  n ← at_ (c_normals m) i;
  face ← at_ (c_faces m) i;
  i0 ← at_ (c_indices m) face.1;
  v0 ← at_ (c_vertices m) i0;
  res_all (λ vj, Ok (negb (rltb flat_tolerance (dot3 (sub3 vj v0) n)))) (c_vertices m).
Definition validate (m : cmesh) : res bool :=
  b ← res_all (flat_face m) (seq 0 (length (c_faces m)));
  if (b : bool) then res_all (outer_face m) (seq 0 (length (c_faces m))) else Ok false.

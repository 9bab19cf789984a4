(** Model of the page cache of a paged triangle mesh
    (src/edyn/shapes/paged_triangle_mesh.cpp and
    include/edyn/shapes/paged_triangle_mesh.hpp).

    One visit at a time: visits from several threads at once are not modelled
    (the reads of the page pointers take no lock).  A loader may finish within
    the call of [load] or at any later time, see [Assign].  What is in a page is
    its number of vertices and its thickness. *)
From Verif Require Export Outcome.

(** triangle_mesh_node (paged_triangle_mesh.hpp:31-36), with m_is_loading_submesh *)
Record page := Page { pg_n : nat; pg_loaded : bool; pg_loading : bool; pg_thick : nat }.
Record pmesh := PMesh {
  pm_pages : list page;     (* m_cache *)
  pm_lru : list nat;        (* m_lru_indices *)
  pm_max : nat;             (* m_max_cache_num_vertices *)
  pm_thick : nat            (* m_thickness *)
}.
(** What can be observed: the function given to a visit is called with a page,
    and a page is reported as loaded or unloaded
    (src/edyn/util/paged_mesh_load_reporting.cpp:13-22). *)
Inductive pev := Visited (i : nat) | Reported (i : nat).

Definition set_pages (m : pmesh) (l : list page) : pmesh := PMesh l (pm_lru m) (pm_max m) (pm_thick m).
Definition set_loaded (b : bool) (p : page) : page := Page (pg_n p) b (pg_loading p) (pg_thick p).
Definition set_loading (b : bool) (p : page) : page := Page (pg_n p) (pg_loaded p) b (pg_thick p).

(** cache_num_vertices, paged_triangle_mesh.cpp:18-30 *)
Definition sum_loaded (l : list page) : nat := foldr (λ p n, (if pg_loaded p then pg_n p else 0) + n) 0 l.
Definition cache_num_vertices (m : pmesh) : nat := sum_loaded (pm_pages m).

Definition loaded (m : pmesh) (i : nat) : bool := match pm_pages m !! i with Some p => pg_loaded p | None => false end.
Definition loading (m : pmesh) (i : nat) : bool := match pm_pages m !! i with Some p => pg_loading p | None => false end.

(** mark_recent_visit, paged_triangle_mesh.cpp:60-64: find and rotate.  An index
    that is not in the list is UB ([it + 1] past the end). *)
Definition split_at (i : nat) (l : list nat) : option (list nat * list nat) :=
  match list_find (λ j, j = i) l with Some (k, _) => Some (take k l, drop (S k) l) | None => None end.
Definition mark_recent_visit (m : pmesh) (i : nat) : res pmesh :=
  '(a, b) ← opt_res (split_at i (pm_lru m));
  Ok (PMesh (pm_pages m) (i :: a ++ b) (pm_max m) (pm_thick m)).

(** unload_least_recently_visited_node, paged_triangle_mesh.cpp:66-78 *)
Definition unload (m : pmesh) : pmesh * list pev :=
  match list_find (λ j, loaded m j = true) (reverse (pm_lru m)) with
  | Some (_, i) => (set_pages m (alter (set_loaded false) i (pm_pages m)), [Reported i])
  | None => (m, [])
  end.
(** The loop of paged_triangle_mesh.cpp:53-55 *)
Fixpoint evict (fuel : nat) (m : pmesh) (n : nat) : res (pmesh * list pev) :=
  match fuel with
  | O => NoFuel
  | S fuel =>
    if decide (pm_max m < cache_num_vertices m + n) then
      let '(m, e1) := unload m in '(m, e2) ← evict fuel m n; Ok (m, e1 ++ e2)
    else Ok (m, [])
  end.
(** assign_mesh, paged_triangle_mesh.cpp:92-100 *)
Definition assign_mesh (m : pmesh) (i : nat) : res (pmesh * list pev) :=
  p ← opt_res (pm_pages m !! i);
  Ok (set_pages m (<[i := Page (pg_n p) true false (pm_thick m)]> (pm_pages m)), [Reported i]).
(** load_node_if_needed, paged_triangle_mesh.cpp:32-58.  [sync]: the loader calls
    [assign_mesh] before it returns. *)
Definition load_node_if_needed (m : pmesh) (i : nat) (sync : bool) : res (pmesh * list pev) :=
  match pm_pages m !! i with
  | None => AssertFail
  | Some p =>
    if pg_loading p then Ok (m, []) else
    if pg_loaded p then Ok (m, []) else
    let m := set_pages m (<[i := set_loading true p]> (pm_pages m)) in
    _ ← assert_ (bool_decide (pg_n p < pm_max m));
    '(m, e1) ← evict (S (length (pm_pages m))) m (pg_n p);
    '(m, e2) ← (if (sync : bool) then assign_mesh m i else Ok (m, []));
    Ok (m, e1 ++ e2)
  end.
(** The body of the visitors, paged_triangle_mesh.hpp:49-57, 90-101, 162-173. *)
Definition visit (m : pmesh) (i : nat) (sync : bool) : res (pmesh * list pev) :=
  '(m, e) ← load_node_if_needed m i sync;
  if loaded m i then m ← mark_recent_visit m i; Ok (m, e ++ [Visited i]) else Ok (m, e).
(** clear_cache, paged_triangle_mesh.cpp:86-90 *)
Definition clear_cache (m : pmesh) : pmesh := set_pages m (set_loaded false <$> pm_pages m).
(** set_thickness, paged_triangle_mesh.cpp:182-190 *)
Definition set_thickness (m : pmesh) (t : nat) : pmesh :=
  set_pages m ((λ p, if pg_loaded p then Page (pg_n p) true (pg_loading p) t else p) <$> pm_pages m).

Inductive pop := Visit (i : nat) (sync : bool) | Assign (i : nat) | ClearCache.
Definition pstep (m : pmesh) (o : pop) : res (pmesh * list pev) :=
  match o with
  | Visit i sync => visit m i sync
  | Assign i => assign_mesh m i
  | ClearCache => Ok (clear_cache m, [])
  end.
Fixpoint prun (m : pmesh) (os : list pop) : res (pmesh * list pev) :=
  match os with
  | [] => Ok (m, [])
  | o :: os => '(m, e1) ← pstep m o; '(m, e2) ← prun m os; Ok (m, e1 ++ e2)
  end.

(** As read from a file (paged_triangle_mesh_s11n.cpp:78-109) or created in
    memory (create_paged_triangle_mesh.hpp:257-261), the latter with all pages
    loaded. *)
Definition pm_new (all : bool) (sizes : list nat) (max : nat) : pmesh :=
  PMesh ((λ n, Page n all false 1) <$> sizes) (seq 0 (length sizes)) max 1.

(** ** Loading from one file
    load_mesh_context::load in embedded mode (paged_triangle_mesh_s11n.cpp:133-140):
    the stream is positioned, then the page is read from it.  All loads share
    the stream.  [sched] says which load (of which page) takes its next step. *)
Record loads := Loads { ld_pos : option nat; ld_seeked : gset nat; ld_done : list (nat * option nat) }.
Definition load_step (l : loads) (i : nat) : loads :=
  if decide (i ∈ ld_seeked l) then
    (* the read starts at the position, and leaves the stream after the page *)
    Loads (S <$> ld_pos l) (ld_seeked l ∖ {[i]}) (ld_done l ++ [(i, ld_pos l)])
  else Loads (Some i) ({[i]} ∪ ld_seeked l) (ld_done l).
Definition load_run (sched : list nat) : loads := foldl load_step (Loads None ∅ []) sched.

(** Models of entity_map (include/edyn/replication/entity_map.hpp) and
    contact_manifold_map (src/edyn/collision/contact_manifold_map.cpp).
    std::unordered_map and std::map over pairs of entities are finite maps. *)
From Verif Require Import Outcome.
Notation entity := nat (only parsing).

(** ** entity_map *)
(** entity_map.hpp:121-122 *)
Record emap := EMap { em_map : gmap nat nat; em_local : gmap nat nat }.
Definition em_empty : emap := EMap ∅ ∅.

(** entity_map.hpp:19-24 *)
Definition em_insert (m : emap) (e l : entity) : res emap :=
  _ ← assert_ (bool_decide (em_map m !! e = None));
  _ ← assert_ (bool_decide (em_local m !! l = None));
  Ok (EMap (<[e := l]> (em_map m)) (<[l := e]> (em_local m))).
(** entity_map.hpp:30-34; [at] of a missing key throws, recorded as [UB]. *)
Definition em_erase (m : emap) (e : entity) : res emap :=
  l ← opt_res (em_map m !! e);
  Ok (EMap (delete e (em_map m)) (delete l (em_local m))).
(** entity_map.hpp:40-44 *)
Definition em_erase_local (m : emap) (l : entity) : res emap :=
  e ← opt_res (em_local m !! l);
  Ok (EMap (delete e (em_map m)) (delete l (em_local m))).
(** entity_map.hpp:51-62 *)
Definition em_contains (m : emap) (e : entity) : bool := bool_decide (is_Some (em_map m !! e)).
Definition em_contains_local (m : emap) (l : entity) : bool := bool_decide (is_Some (em_local m !! l)).
(** entity_map.hpp:69-80 *)
Definition em_at (m : emap) (e : entity) : res entity := opt_res (em_map m !! e).
Definition em_at_local (m : emap) (l : entity) : res entity := opt_res (em_local m !! l).
(** entity_map.hpp:88-98: the loop visits every element of [map] once, in
    some order ([map_to_list]); the predicate is pure. *)
Definition em_erase_if (m : emap) (p : entity → entity → bool) : emap :=
  foldl (λ m el, if p el.1 el.2 then EMap (delete el.1 (em_map m)) (delete el.2 (em_local m)) else m)
        m (map_to_list (em_map m)).
(** entity_map.hpp:105-110, the pairs passed to [func] *)
Definition em_each (m : emap) : list (nat * nat) := map_to_list (em_map m).
(** entity_map.hpp:115-117 *)
Definition em_swap (m : emap) : emap := EMap (em_local m) (em_map m).
(** entity_map.hpp:119-122 *)
Definition em_clear (m : emap) : emap := em_empty.

(** ** contact_manifold_map together with the manifold components *)
Record mmap := MMap {
  mm_body : gmap nat (nat * nat);      (* contact_manifold::body per manifold entity *)
  mm_pair : gmap (nat * nat) nat       (* m_pair_map, contact_manifold_map.hpp:52 *)
}.
Definition mm_empty : mmap := MMap ∅ ∅.

(** registry.emplace<contact_manifold>(m, a, b): the component is stored (a
    second one is UB in EnTT), then on_construct_contact_manifold runs,
    contact_manifold_map.cpp:34-42. *)
Definition mm_create (s : mmap) (m a b : entity) : res mmap :=
  _ ← require_ (bool_decide (mm_body s !! m = None));
  _ ← assert_ (bool_decide (mm_pair s !! (a, b) = None) && bool_decide (mm_pair s !! (b, a) = None));
  Ok (MMap (<[m := (a, b)]> (mm_body s)) (<[(b, a) := m]> (<[(a, b) := m]> (mm_pair s)))).
(** Destruction of the manifold entity: on_destroy_contact_manifold,
    contact_manifold_map.cpp:44-51, then the component is removed. *)
Definition mm_destroy (s : mmap) (m : entity) : res mmap :=
  '(a, b) ← opt_res (mm_body s !! m);
  Ok (MMap (delete m (mm_body s)) (delete (b, a) (delete (a, b) (mm_pair s)))).
(** swap_manifold (src/edyn/util/constraint_util.cpp:104-137): the bodies of a
    manifold trade places and the pair map is not touched. *)
Definition mm_swap (s : mmap) (m : entity) : res mmap :=
  '(a, b) ← opt_res (mm_body s !! m);
  Ok (MMap (<[m := (b, a)]> (mm_body s)) (mm_pair s)).
(** contact_manifold_map.cpp:17-32; contact_manifold_util.cpp:7-24 *)
Definition mm_contains (s : mmap) (a b : entity) : bool := bool_decide (is_Some (mm_pair s !! (a, b))).
Definition mm_get (s : mmap) (a b : entity) : res entity :=
  _ ← assert_ (mm_contains s a b); opt_res (mm_pair s !! (a, b)).
(** contact_manifold_map.cpp:53-55 *)
Definition mm_clear (s : mmap) : mmap := MMap (mm_body s) ∅.

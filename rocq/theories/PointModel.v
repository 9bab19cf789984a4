(** Model of the contact points of a manifold:
    - insertion_point_index (src/edyn/math/geom.cpp:857-978),
    - collision_result::add_point / maybe_add_point (src/edyn/collision/collision_result.cpp),
    - process_collision (include/edyn/util/collision_util.hpp:104-276),
    - find_nearest_contact, find_nearest_contact_rolling, create_contact_point,
      destroy_contact_point (src/edyn/util/collision_util.cpp),
    - clear_contact_manifold (src/edyn/util/contact_manifold_util.cpp:26-39),
    - the sequential and parallel loops of narrowphase (narrowphase.hpp:60-82,
      narrowphase.cpp:42-109).

    Geometry enters only through the comparisons the code makes: the vector
    arithmetic (distances, cross products, scores) is a record of arbitrary
    functions.  NaN is a scalar for which comparisons are false. *)
From Verif Require Import Outcome.

(** include/edyn/config/constants.hpp: max_contacts *)
Definition max_contacts : nat := 4.

(** The arithmetic used to place points. *)
Record geo (V Sc : Type) := Geo {
  g_lt : Sc → Sc → bool;              (* a < b *)
  g_dist : V → V → Sc;               (* distance_sqr *)
  g_sim : Sc;                        (* contact_merging_threshold^2 *)
  g_cache : Sc;                      (* contact_caching_threshold^2 *)
  g_eps : Sc; g_max : Sc; g_zero : Sc; g_one : Sc;
  g_cross : V → V → V → Sc;          (* n p q: length_sqr(cross(n - p, n - q)) *)
  g_norm : V → V → V → bool;        (* try_normalize(cross(p0 - p1, p1 - p2)) *)
  g_intri : V → V → V → V → bool;   (* n p0 p1 p2: on the plane and point_in_triangle *)
  g_dot : V → V → V → Sc;            (* a b c: dot(b - a, c - a) *)
  g_score : V → V → V → V → Sc       (* manifold_score *)
}.
Arguments g_lt {_ _}. Arguments g_dist {_ _}. Arguments g_sim {_ _}. Arguments g_cache {_ _}.
Arguments g_eps {_ _}. Arguments g_max {_ _}. Arguments g_zero {_ _}. Arguments g_one {_ _}.
Arguments g_cross {_ _}. Arguments g_norm {_ _}. Arguments g_intri {_ _}. Arguments g_dot {_ _}.
Arguments g_score {_ _}.

(** geom.hpp:252-257 *)
Inductive itype := INone | ISimilar | IReplace | IAppend.
Global Instance itype_eq_dec : EqDecision itype.
Proof. solve_decision. Defined.

Section insertion.
Context {V Sc : Type} (G : geo V Sc).

(** geom.cpp:929-936 and 951-958: index of the best value, [None] = SIZE_MAX *)
Definition best (better : Sc → Sc → bool) (init : Sc) (l : list Sc) : option nat :=
  (foldl (λ '(m, bi, i) x, if better x m then (x, Some i, S i) else (m, bi, S i))
     (init, None, 0) l).1.2.

(** geom.cpp:857-978.  Returns type, index ([None] = SIZE_MAX) and the new
    number of points. *)
Definition insertion_point_index (points : list V) (num : nat) (p : V) : res (itype * option nat * nat) :=
  let count := length points in
  let gt a b := g_lt G b a in
  _ ← assert_ (bool_decide (num ≤ count));
  match num with
  | 0 => Ok (IAppend, Some 0, 1)
  | 1 =>
    p0 ← opt_res (points !! 0);
    if gt (g_dist G p p0) (g_sim G) then Ok (IAppend, Some 1, 2) else Ok (ISimilar, Some 0, 1)
  | 2 =>
    p0 ← opt_res (points !! 0);
    p1 ← opt_res (points !! 1);
    if gt (g_cross G p p0 p1) (g_eps G) then Ok (IAppend, Some 2, 3)
    else
      let d0 := g_dist G p p0 in
      let d1 := g_dist G p p1 in
      let dc := g_dist G p0 p1 in
      if gt d0 dc && gt d0 d1 then
        Ok (if g_lt G d1 (g_sim G) then ISimilar else IReplace, Some 1, 2)
      else if gt d1 dc && gt d1 d0 then
        Ok (if g_lt G d0 (g_sim G) then ISimilar else IReplace, Some 0, 2)
      else Ok (INone, Some count, 2)
  | 3 =>
    p0 ← opt_res (points !! 0);
    p1 ← opt_res (points !! 1);
    p2 ← opt_res (points !! 2);
    if g_norm G p0 p1 p2 then
      if g_intri G p p0 p1 p2 then Ok (INone, Some count, 3) else Ok (IAppend, Some 3, 4)
    else
      let between d := gt d (g_zero G) && g_lt G d (g_one G) in
      if between (g_dot G p0 p1 p2) then Ok (IReplace, Some 1, 3)
      else if between (g_dot G p1 p0 p2) then Ok (IReplace, Some 0, 3)
      else if between (g_dot G p0 p2 p1) then Ok (IReplace, Some 2, 3)
      else Ok (IReplace, best (g_lt G) (g_max G) [g_dist G p0 p1; g_dist G p1 p2; g_dist G p2 p0], 3)
  | _ =>
    p0 ← opt_res (points !! 0);
    p1 ← opt_res (points !! 1);
    p2 ← opt_res (points !! 2);
    p3 ← opt_res (points !! 3);
    let scores := [g_score G p p1 p2 p3; g_score G p p0 p2 p3; g_score G p p0 p1 p3; g_score G p p0 p1 p2] in
    match best gt (g_score G p0 p1 p2 p3) scores with
    | Some i =>
      if decide (i < max_contacts) then
        q ← opt_res (points !! i);
        Ok (if g_lt G (g_dist G q p) (g_sim G) then ISimilar else IReplace, Some i, num)
      else Ok (INone, Some count, num)
    | None => Ok (INone, Some count, num)
    end
  end.
End insertion.

(** collision_result.hpp:14-21; [rp_rest] stands for normal, distance,
    attachment and features. *)
Record rpoint (V X : Type) := RP { rp_a : V; rp_b : V; rp_rest : X }.
Arguments RP {_ _} _ _ _.
Arguments rp_a {_ _} _. Arguments rp_b {_ _} _. Arguments rp_rest {_ _} _.

(** collision_result.hpp:38-39: the array always has four elements. *)
Record cresult (V X : Type) := CRes { rs_num : nat; rs_pts : list (rpoint V X) }.
Arguments CRes {_ _} _ _.
Arguments rs_num {_ _} _. Arguments rs_pts {_ _} _.

Section result.
Context {V Sc X : Type} (G : geo V Sc).
Definition store {A} (l : list A) (i : option nat) (x : A) : res (list A) :=
  match i with
  | None => UB
  | Some i => if decide (i < length l) then Ok (<[i := x]> l) else UB
  end.
(** collision_result.cpp:6-10 *)
Definition add_point (r : cresult V X) (p : rpoint V X) : res (cresult V X) :=
  _ ← assert_ (bool_decide (rs_num r < max_contacts));
  l ← store (rs_pts r) (Some (rs_num r)) p;
  Ok (CRes (S (rs_num r)) l).
(** The two attempts shared by maybe_add_point (collision_result.cpp:13-28) and
    process_collision (collision_util.hpp:214-229). *)
Definition find_slot (pts : list (rpoint V X)) (num : nat) (p : rpoint V X) : res (itype * option nat * nat) :=
  '(t, i, n) ← insertion_point_index G (rp_a <$> pts) num (rp_a p);
  if decide (t = INone) then insertion_point_index G (rp_b <$> pts) n (rp_b p)
  else Ok (t, i, n).
(** collision_result.cpp:12-33 *)
Definition maybe_add_point (r : cresult V X) (p : rpoint V X) : res (cresult V X) :=
  '(t, i, n) ← find_slot (rs_pts r) (rs_num r) p;
  if decide (t = INone) then Ok (CRes n (rs_pts r))
  else l ← store (rs_pts r) i p; Ok (CRes n l).
End result.

(** contact_point, contact_point_geometry and contact_point_list of a contact
    entity; they are emplaced and destroyed together. *)
Record cpoint (V X : Type) := CP { cp_parent : nat; cp_next : option nat; cp_pt : rpoint V X; cp_life : nat }.
Arguments CP {_ _} _ _ _ _.
Arguments cp_parent {_ _} _. Arguments cp_next {_ _} _. Arguments cp_pt {_ _} _. Arguments cp_life {_ _} _.

(** [pr_man]: contact_manifold_state (num_points, contact_entity) of each live
    manifold.  Entities are never reused ([pr_fresh] is the next one); EnTT
    recycles indices under a new version, which makes a new identifier. *)
Record preg (V X : Type) := PReg { pr_cp : gmap nat (cpoint V X); pr_man : gmap nat (nat * option nat); pr_fresh : nat }.
Arguments PReg {_ _} _ _ _.
Arguments pr_cp {_ _} _. Arguments pr_man {_ _} _. Arguments pr_fresh {_ _} _.

(** Bodies at the time of a collision update: rolling tests (world distance of
    an old pivot and a result point), separation test. *)
Record penv (V Sc X : Type) := PEnv {
  e_rollA : option (V → V → Sc);
  e_rollB : option (V → V → Sc);
  e_sep : rpoint V X → bool
}.
Arguments PEnv {_ _ _} _ _ _.
Arguments e_rollA {_ _ _} _. Arguments e_rollB {_ _ _} _. Arguments e_sep {_ _ _} _.

Section contacts.
Context {V Sc X : Type} (G : geo V Sc) (nz : rpoint V X → bool) (dflt : rpoint V X).
Notation preg := (preg V X).
Notation rpoint := (rpoint V X).

(** collision_util.cpp:319-395; [nz]: length_sqr(normal) > EDYN_EPSILON.
    num_points is a uint8; it stays below 5 or the theorems would not hold. *)
Definition create_contact_point (r : preg) (m : nat) (p : rpoint) : res preg :=
  _ ← assert_ (nz p);
  '(n, h) ← opt_res (pr_man r !! m);
  _ ← assert_ (bool_decide (n ≤ max_contacts));
  let e := pr_fresh r in
  Ok (PReg (<[e := CP m h p 0]> (pr_cp r)) (<[m := (S n, Some e)]> (pr_man r)) (S e)).

(** collision_util.cpp:423-429 *)
Fixpoint find_prev (fuel : nat) (cps : gmap nat (cpoint V X)) (e : nat) (curr : option nat) : res nat :=
  match fuel with
  | 0 => NoFuel
  | S fuel =>
    x ← opt_res curr;
    c ← opt_res (cps !! x);
    if decide (cp_next c = Some e) then Ok x else find_prev fuel cps e (cp_next c)
  end.
Definition set_next (c : cpoint V X) (n : option nat) : cpoint V X := CP (cp_parent c) n (cp_pt c) (cp_life c).
(** collision_util.cpp:415-438; decrementing zero points would wrap: [UB]. *)
Definition destroy_contact_point (r : preg) (e : nat) : res preg :=
  c ← opt_res (pr_cp r !! e);
  let m := cp_parent c in
  '(n, h) ← opt_res (pr_man r !! m);
  '(cps, h') ← (if decide (h = Some e) then Ok (pr_cp r, cp_next c)
     else x ← find_prev (size (pr_cp r)) (pr_cp r) e h;
          xc ← opt_res (pr_cp r !! x);
          Ok (<[x := set_next xc (cp_next c)]> (pr_cp r), h));
  _ ← require_ (bool_decide (0 < n));
  Ok (PReg (delete e cps) (<[m := (n - 1, h')]> (pr_man r)) (pr_fresh r)).

(** contact_manifold_util.cpp:26-39 *)
Fixpoint destroy_all (fuel : nat) (cps : gmap nat (cpoint V X)) (h : option nat) : res (gmap nat (cpoint V X)) :=
  match h with
  | None => Ok cps
  | Some x =>
    match fuel with
    | 0 => NoFuel
    | S fuel => c ← opt_res (cps !! x); destroy_all fuel (delete x cps) (cp_next c)
    end
  end.
Definition clear_contact_manifold (r : preg) (m : nat) : res preg :=
  '(_, h) ← opt_res (pr_man r !! m);
  cps ← destroy_all (size (pr_cp r)) (pr_cp r) h;
  Ok (PReg cps (<[m := (0, None)]> (pr_man r)) (pr_fresh r)).
(** constraint_util.cpp:74-75 and broadphase.cpp:130-131 *)
Definition make_manifold (r : preg) : preg :=
  PReg (pr_cp r) (<[pr_fresh r := (0, None)]> (pr_man r)) (S (pr_fresh r)).
Definition destroy_manifold (r : preg) (m : nat) : res preg :=
  r' ← clear_contact_manifold r m;
  Ok (PReg (pr_cp r') (delete m (pr_man r')) (pr_fresh r')).

(** collision_util.cpp:233-255 *)
Definition find_nearest (p : rpoint) (result : list rpoint) : nat :=
  (foldl (λ '(s, n, i) q,
     let dA := g_dist G (rp_a q) (rp_a p) in
     let dB := g_dist G (rp_b q) (rp_b p) in
     let '(s, n) := if g_lt G dA s then (dA, i) else (s, n) in
     let '(s, n) := if g_lt G dB s then (dB, i) else (s, n) in
     (s, n, S i)) (g_cache G, length result, 0) result).1.2.
(** collision_util.cpp:257-280.  It compares the result's pivotA for both
    bodies, as the code does. *)
Definition find_nearest_rolling (dist : V → V → Sc) (pivot : V) (result : list rpoint) : nat :=
  (foldl (λ '(s, n, i) q,
     let d := dist pivot (rp_a q) in
     let '(s, n) := if g_lt G d s then (d, i) else (s, n) in
     (s, n, S i)) (g_cache G, length result, 0) result).1.2.
(** collision_util.hpp:142-153 *)
Definition nearest (env : penv V Sc X) (p : rpoint) (result : list rpoint) : nat :=
  let n := find_nearest p result in
  let n := if decide (n = length result) then
             match e_rollA env with Some d => find_nearest_rolling d (rp_a p) result | None => n end else n in
  if decide (n = length result) then
    match e_rollB env with Some d => find_nearest_rolling d (rp_b p) result | None => n end else n.

(** contact_manifold_util.hpp:38-45: the next entity is read before the visit *)
Fixpoint for_each {A} (fuel : nat) (next : A → nat → res (option nat)) (f : A → nat → res A) (a : A) (h : option nat) : res A :=
  match h with
  | None => Ok a
  | Some x =>
    match fuel with
    | 0 => NoFuel
    | S fuel => n ← next a x; a' ← f a x; for_each fuel next f a' n
    end
  end.

(** The state threaded through process_collision.  In sequential mode the
    callbacks act at once; in parallel mode they record. *)
Record pst := PSt { ps_reg : preg; ps_new : list rpoint; ps_del : list nat }.
(** narrowphase.hpp:74-77 / narrowphase.cpp:58-59: the record has room for
    four points *)
Definition new_f (par : bool) (m : nat) (s : pst) (p : rpoint) : res pst :=
  if par then _ ← require_ (bool_decide (length (ps_new s) < max_contacts));
              Ok (PSt (ps_reg s) (ps_new s ++ [p]) (ps_del s))
  else r ← create_contact_point (ps_reg s) m p; Ok (PSt r (ps_new s ++ [p]) (ps_del s)).
(** narrowphase.hpp:78-80 / narrowphase.cpp:60-62 *)
Definition del_f (par : bool) (s : pst) (e : nat) : res pst :=
  if par then Ok (PSt (ps_reg s) (ps_new s) (ps_del s ++ [e]))
  else r ← destroy_contact_point (ps_reg s) e; Ok (PSt r (ps_new s) (ps_del s ++ [e])).
Definition set_cp (s : pst) (e : nat) (c : cpoint V X) : pst :=
  PSt (PReg (<[e := c]> (pr_cp (ps_reg s))) (pr_man (ps_reg s)) (pr_fresh (ps_reg s))) (ps_new s) (ps_del s).
(** collision_util.cpp:205-231: merge_point assigns every geometric field *)
Definition merge (s : pst) (e : nat) (p : rpoint) : res pst :=
  c ← opt_res (pr_cp (ps_reg s) !! e);
  Ok (set_cp s e (CP (cp_parent c) (cp_next c) p (cp_life c))).

(** collision_util.hpp:134-166: visit of one existing point.
    [w_merged]: merged_indices; [w_num]: num_points; [w_removed]: points_removed *)
Record wst := WSt { w_st : pst; w_merged : list bool; w_num : nat; w_removed : list nat }.
Definition visit (par : bool) (env : penv V Sc X) (result : list rpoint) (w : wst) (e : nat) : res wst :=
  c ← opt_res (pr_cp (ps_reg (w_st w)) !! e);
  let s := set_cp (w_st w) e (CP (cp_parent c) (cp_next c) (cp_pt c) (S (cp_life c))) in
  let n := nearest env (cp_pt c) result in
  fresh ← (if decide (n < length result) then b ← opt_res (w_merged w !! n); Ok (negb b) else Ok false);
  if (fresh : bool) then
    q ← opt_res (result !! n);
    s' ← merge s e q;
    Ok (WSt s' (<[n := true]> (w_merged w)) (w_num w) (w_removed w))
  else if e_sep env (cp_pt c) then
    _ ← assert_ (bool_decide (0 < w_num w));
    s' ← del_f par s e;
    Ok (WSt s' (w_merged w) (w_num w - 1) (w_removed w ++ [e]))
  else Ok (WSt s (w_merged w) (w_num w) (w_removed w)).

(** collision_util.hpp:177-181 *)
Record slot := Slot { s_pt : rpoint; s_ent : option nat; s_type : itype }.
Definition slot0 : slot := Slot dflt None INone.
(** collision_util.hpp:186-194 *)
Definition fill_slot (removed : list nat) (r : preg) (a : list slot * nat) (e : nat) : res (list slot * nat) :=
  if decide (e ∈ removed) then Ok a
  else
    c ← opt_res (pr_cp r !! e);
    l ← store a.1 (Some a.2) (Slot (cp_pt c) (Some e) INone);
    Ok (l, S a.2).
(** collision_util.hpp:203-235: one result point *)
Definition place (a : list slot * nat) (p : rpoint) : res (list slot * nat) :=
  '(t, i, n) ← find_slot G (s_pt <$> a.1) a.2 p;
  if decide (t = INone) then Ok (a.1, n)
  else
    k ← opt_res i;
    o ← opt_res (a.1 !! k);
    Ok (<[k := Slot p (s_ent o) t]> a.1, n).
Fixpoint place_all (merged : list bool) (result : list rpoint) (a : list slot * nat) : res (list slot * nat) :=
  match result with
  | [] => Ok a
  | p :: result =>
    b ← opt_res (head merged);
    a' ← (if (b : bool) then Ok a else place a p);
    place_all (tail merged) result a'
  end.
(** collision_util.hpp:238-275: one slot *)
Definition commit (par : bool) (m : nat) (s : pst) (x : slot) : res pst :=
  match s_type x with
  | INone => Ok s
  | IAppend => new_f par m s (s_pt x)
  | ISimilar =>
    match s_ent x with
    | None => new_f par m s (s_pt x)
    | Some e => merge s e (s_pt x)
    end
  | IReplace =>
    s' ← (match s_ent x with None => Ok s | Some e => del_f par s e end);
    new_f par m s' (s_pt x)
  end.
Fixpoint commit_all (par : bool) (m : nat) (s : pst) (l : list slot) : res pst :=
  match l with [] => Ok s | x :: l => s' ← commit par m s x; commit_all par m s' l end.

(** collision_util.hpp:104-276 *)
Definition process (par : bool) (env : penv V Sc X) (m : nat) (result : list rpoint) (s : pst) : res pst :=
  '(num, h) ← opt_res (pr_man (ps_reg s) !! m);
  _ ← assert_ (bool_decide (num ≤ max_contacts));
  let next s e := c ← opt_res (pr_cp (ps_reg s) !! e); Ok (cp_next c) in
  w ← for_each (size (pr_cp (ps_reg s))) (λ w, next (w_st w)) (visit par env result)
        (WSt s (replicate max_contacts false) num []) h;
  let s1 := w_st w in
  _ ← require_ (bool_decide (length result ≤ max_contacts));
  if forallb id (take (length result) (w_merged w)) then Ok s1
  else
    '(_, h1) ← opt_res (pr_man (ps_reg s1) !! m);
    '(slots, num1, merged) ← (
      if decide (0 < w_num w) then
        a ← for_each (size (pr_cp (ps_reg s1))) (λ _, next s1) (fill_slot (w_removed w) (ps_reg s1))
              (replicate max_contacts slot0, 0) h1;
        Ok (a.1, w_num w, w_merged w)
      else
        p ← opt_res (head result);
        Ok (<[0 := Slot p None IAppend]> (replicate max_contacts slot0), 1, <[0 := true]> (w_merged w)));
    '(slots2, num2) ← place_all merged result (slots, num1);
    commit_all par m s1 (take num2 slots2).

(** narrowphase.hpp:60-82: the sequential loop.  [detect] gives the collision
    result and body state of each manifold; it does not depend on contacts. *)
Definition seq_update (detect : nat → list rpoint * penv V Sc X) (r : preg) (ms : list nat) : res preg :=
  foldl (λ r m, r ← r; s ← process false (detect m).2 m (detect m).1 (PSt r [] []); Ok (ps_reg s)) (Ok r) ms.

(** narrowphase.cpp:42-64: the parallel ranges visit the manifolds in some
    order; each has its own record of constructions and destructions. *)
Fixpoint par_detect (detect : nat → list rpoint * penv V Sc X) (r : preg)
    (infos : gmap nat (list rpoint * list nat)) (ms : list nat) : res (preg * gmap nat (list rpoint * list nat)) :=
  match ms with
  | [] => Ok (r, infos)
  | m :: ms =>
    s ← process true (detect m).2 m (detect m).1 (PSt r [] []);
    par_detect detect (ps_reg s) (<[m := (ps_new s, ps_del s)]> infos) ms
  end.
(** narrowphase.cpp:76-109 *)
Definition destroy_list (r : res preg) (l : list nat) : res preg :=
  foldl (λ r e, r ← r; destroy_contact_point r e) r l.
Definition create_list (m : nat) (r : res preg) (l : list rpoint) : res preg :=
  foldl (λ r p, r ← r; create_contact_point r m p) r l.
Definition par_finish (infos : gmap nat (list rpoint * list nat)) (r : preg) (ms : list nat) : res preg :=
  let info m := default ([], []) (infos !! m) in
  let r1 := foldl (λ r m, destroy_list r (info m).2) (Ok r) ms in
  foldl (λ r m, create_list m r (info m).1) r1 ms.
(** [order]: the order in which the ranges happen to process the manifolds;
    [ms]: the order of the manifold view. *)
Definition par_update (detect : nat → list rpoint * penv V Sc X) (r : preg) (order ms : list nat) : res preg :=
  '(r1, infos) ← par_detect detect r ∅ order;
  par_finish infos r1 ms.
End contacts.

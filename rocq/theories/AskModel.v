(** Model for C42: asynchronous queries.
    - stepper_async.cpp: [raycast] 352–363, [query_aabb] 365–377,
      [query_aabb_of_interest] 379–388, [on_raycast_response] 182–197,
      [on_query_aabb_response] 199–225;
    - simulation_worker.cpp: [on_raycast_request] 600–610, [on_query_aabb_request]
      612–639, [on_query_aabb_of_interest_request] 641–692, [update] 353–367,
      [consume_raycast_results] 499–505;
    - raycast_service.hpp 34–46 and raycast_service.cpp 14–123.

    Two threads, the main thread and the simulation worker, joined by one message
    queue each way (first in first out and lossless: C20).  A history is any
    interleaving of the operations below.  Rays and boxes are numbers; what the
    worker's broadphase and shapes answer is an arbitrary [world], which may change
    between any two operations.  Messages of other kinds are left out.  The
    parallel loops 20–32 and 67–84 of raycast_service.cpp write one element of the
    list per index, each index exactly once (C16), so they are maps. *)
From Verif Require Import Outcome.
Open Scope Z_scope.

(** What a user asks for. *)
Inductive ask :=
| AskRay (geo : nat) (ignore : list nat)
| AskBox (geo : nat) (proc nonproc islands : bool)
| AskInterest (geo : nat).
Global Instance ask_eq : EqDecision ask. Proof. solve_decision. Defined.
Definition ask_ray (a : ask) : bool := match a with AskRay _ _ => true | _ => false end.
Definition ask_geo (a : ask) : nat := match a with AskRay g _ | AskBox g _ _ _ | AskInterest g => g end.

(** raycast_result (entity, fraction; a fraction of EDYN_SCALAR_MAX, no hit, is
    [None]; normal and details left out) or query_aabb_result. *)
Inductive answer :=
| AnsRay (entity : option nat) (fraction : option Z)
| AnsBox (islands proc nonproc : list nat).
Global Instance answer_eq : EqDecision answer. Proof. solve_decision. Defined.

(** The worker's registry and broadphase as queries see it. *)
Record world := World {
  w_map : gmap nat nat;             (* m_entity_map, main entity → worker entity *)
  w_ray : nat → list nat;           (* entities broadphase::raycast visits, in order *)
  w_frac : nat → nat → option Z;    (* shape_raycast of an entity *)
  w_isl : nat → list nat;           (* query_islands *)
  w_proc : nat → list nat;          (* query_procedural *)
  w_np : nat → list nat;            (* query_non_procedural *)
  w_nodes : nat → list nat;         (* island::nodes *)
  w_edges : nat → list nat;         (* island::edges *)
  w_procedural : nat → bool;        (* procedural_tag *)
  w_manifold : nat → bool           (* contact_manifold *)
}.

(** [fraction < res.fraction] *)
Definition frac_lt (a b : option Z) : bool :=
  match a, b with
  | Some a, Some b => bool_decide (a < b)
  | Some _, None => true
  | None, _ => false
  end.

(** sparse_set: push if not contained, simulation_worker.cpp 656–658. *)
Definition push_new (l : list nat) (e : nat) : list nat := if decide (e ∈ l) then l else l ++ [e].

(** on_query_aabb_request 612–639, on_query_aabb_of_interest_request 641–692; the
    iteration order of a sparse_set (from the back) is not kept. *)
Definition box_answer (w : world) (a : ask) : answer :=
  match a with
  | AskBox g p n i =>
      AnsBox (if i then w_isl w g else []) (if p then w_proc w g else []) (if n then w_np w g else [])
  | AskInterest g =>
      AnsBox (foldl push_new [] (w_isl w g))
             (foldl push_new []
                (flat_map (λ i, filter (λ e, w_procedural w e = true) (w_nodes w i)
                             ++ filter (λ e, w_manifold w e = false) (w_edges w i)) (w_isl w g)))
             (foldl push_new [] (w_np w g))
  | AskRay _ _ => AnsBox [] [] []
  end.

(** A ray waiting in [m_broad_ctx]: id, ray, entities to ignore (worker side). *)
Record bray := BRay { b_id : nat; b_geo : nat; b_ignore : list nat }.
(** run_broadphase 14–42: the candidates of one ray. *)
Definition candidates (w : world) (b : bray) : list nat :=
  filter (λ e, e ∉ b_ignore b) (w_ray w (b_geo b)).
(** One turn of finish_narrowphase 106–113; [m_results[id]] creates an entry
    without hit if there is none. *)
Definition narrow_one (w : world) (res : gmap nat (option nat * option Z)) (c : bray * nat) :
  gmap nat (option nat * option Z) :=
  let '(b, e) := c in
  let r := default (None, None) (res !! b_id b) in
  let f := w_frac w (b_geo b) e in
  <[b_id b := if frac_lt f r.2 then (Some e, f) else r]> res.
(** finish_broadphase 44–56, run_narrowphase 58–103, finish_narrowphase 105–116:
    one context per ray and candidate. *)
Definition ray_results (w : world) (bs : list bray) : gmap nat (option nat * option Z) :=
  foldl (narrow_one w) ∅ (flat_map (λ b, (λ e, (b, e)) <$> candidates w b) bs).

(** Log.  [LTake]: the worker took a ray from its queue; [LAnswer]: the worker sent an answer; [LNone]: a ray left the worker
    without an answer (no trace in the code); [LCall]: the delegate was called,
    with the main thread's entity map of that moment. *)
Inductive event :=
| LIssue (id : nat) (a : ask) (deleg : nat)
| LTake (id : nat) (w : world)
| LAnswer (id : nat) (ray : bool) (w : world) (ans : answer)
| LNone (id : nat) (w : world)
| LCall (id : nat) (ray : bool) (geo deleg : nat) (m : gmap nat nat) (ans : answer).

Record ast := Ast {
  a_next : bool → nat;                         (* m_next_raycast_id / m_next_query_aabb_id *)
  a_ctx : gmap (bool * nat) (nat * nat);       (* m_raycast_ctx / m_query_aabb_ctx: geometry, delegate *)
  a_map : gmap nat nat;                        (* main's m_entity_map, worker entity → main entity *)
  a_out : list (nat * ask);                    (* queue "worker" *)
  a_broad : list bray;                         (* m_broad_ctx *)
  a_in : list (nat * bool * answer);           (* queue "main" *)
  a_world : world;
  a_log : list event
}.
Definition a_init (w : world) : ast := Ast (λ _, O) ∅ ∅ [] [] [] w [].

(** Ids are [unsigned]: they count modulo [M] = 2^32. *)
Definition a_issue (M : nat) (s : ast) (q : ask * nat) : ast :=
  let '(a, d) := q in
  let k := ask_ray a in
  let id := a_next s k in
  Ast (λ k', if decide (k' = k) then (S id mod M)%nat else a_next s k')
      (<[(k, id) := (ask_geo a, d)]> (a_ctx s)) (a_map s) (a_out s ++ [(id, a)])
      (a_broad s) (a_in s) (a_world s) (a_log s ++ [LIssue id a d]).

(** The worker takes one message from its queue.  600–610: unknown entities to
    ignore are skipped. *)
Definition a_handle (s : ast) : ast :=
  match a_out s with
  | [] => s
  | (id, a) :: out =>
      match a with
      | AskRay g ign =>
          Ast (a_next s) (a_ctx s) (a_map s) out
              (a_broad s ++ [BRay id g (omap (λ e, w_map (a_world s) !! e) ign)])
              (a_in s) (a_world s) (a_log s ++ [LTake id (a_world s)])
      | _ =>
          let ans := box_answer (a_world s) a in
          Ast (a_next s) (a_ctx s) (a_map s) out (a_broad s) (a_in s ++ [(id, false, ans)])
              (a_world s) (a_log s ++ [LAnswer id false (a_world s) ans])
      end
  end.

(** [m_raycast_service.update; consume_raycast_results], 366–367.  [m_results] is
    empty before and after.  Responses are sent in the order of an unordered_map. *)
Definition a_update (s : ast) : ast :=
  let w := a_world s in
  let res := ray_results w (a_broad s) in
  let out := (λ '(id, (e, f)), (id, AnsRay e f)) <$> map_to_list res in
  Ast (a_next s) (a_ctx s) (a_map s) (a_out s) []
      (a_in s ++ ((λ '(id, ans), (id, true, ans)) <$> out)) w
      (a_log s ++ ((λ '(id, ans), LAnswer id true w ans) <$> out)
               ++ ((λ b, LNone (b_id b) w) <$> filter (λ b, res !! b_id b = None) (a_broad s))).

(** stepper_async.cpp 186–192, 204–220 *)
Definition translate (m : gmap nat nat) (a : answer) : answer :=
  match a with
  | AnsRay e f => AnsRay (e ≫= λ e, m !! e) f
  | AnsBox i p n => AnsBox (omap (λ e, m !! e) i) (omap (λ e, m !! e) p) (omap (λ e, m !! e) n)
  end.

(** One message of [m_message_queue_handle.update()]: 194–196, 222–224.  The
    delegate asks [cb]; [at] of a missing key throws, recorded as [UB]. *)
Definition a_deliver (M : nat) (s : ast) (cb : list (ask * nat)) : res ast :=
  match a_in s with
  | [] => Ok s
  | (id, ray, ans) :: inn =>
      '(g, d) ← opt_res (a_ctx s !! (ray, id));
      let s := Ast (a_next s) (a_ctx s) (a_map s) (a_out s) (a_broad s) inn (a_world s)
                   (a_log s ++ [LCall id ray g d (a_map s) (translate (a_map s) ans)]) in
      let s := foldl (a_issue M) s cb in
      Ok (Ast (a_next s) (delete (ray, id) (a_ctx s)) (a_map s) (a_out s) (a_broad s) (a_in s)
              (a_world s) (a_log s))
  end.

Inductive aop :=
| AIssue (a : ask) (deleg : nat)                 (* main, outside of a callback *)
| AHandle                                        (* worker *)
| AUpdate                                        (* worker *)
| AWorld (w : world)                             (* worker: anything else it does *)
| AMap (m : gmap nat nat)                        (* main: anything else that changes its map *)
| ADeliver (cb : list (ask * nat)).              (* main *)

Definition a_step (M : nat) (s : ast) (o : aop) : res ast :=
  match o with
  | AIssue a d => Ok (a_issue M s (a, d))
  | AHandle => Ok (a_handle s)
  | AUpdate => Ok (a_update s)
  | AWorld w => Ok (Ast (a_next s) (a_ctx s) (a_map s) (a_out s) (a_broad s) (a_in s) w (a_log s))
  | AMap m => Ok (Ast (a_next s) (a_ctx s) m (a_out s) (a_broad s) (a_in s) (a_world s) (a_log s))
  | ADeliver cb => a_deliver M s cb
  end.
Fixpoint a_run (M : nat) (s : ast) (os : list aop) : res ast :=
  match os with
  | [] => Ok s
  | o :: os => s ← a_step M s o; a_run M s os
  end.

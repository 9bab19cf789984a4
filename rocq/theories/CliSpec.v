(** Specification of the networked client: what an observer of the packets, the
    messages to the extrapolation worker and the registry sees. *)
From Coq Require Import ZArith.
From Verif Require Import Outcome MapModel CliModel.
Local Open Scope nat_scope.

(** The local entity that stands for the server's entity [r]. *)
Definition known (s : cst) (r : nat) : option nat := em_map (cx_map (c_k s)) !! r.
(** The server's entity that the local entity [l] stands for. *)
Definition known_local (s : cst) (l : nat) : option nat := em_local (cx_map (c_k s)) !! l.
Definition lives (s : cst) (e : nat) : Prop := e ∈ cw_alive (c_w s).
Definition networked (s : cst) (e : nat) : Prop := e ∈ cw_net (c_w s).
Definition owner_of (s : cst) (e : nat) : option (option nat) := cw_owner (c_w s) !! e.
(** The entries of an asset, pairs of an identifier and a server's entity. *)
Definition asset_of (s : cst) (e : nat) : option (list (nat * nat)) := cw_asset (c_w s) !! e.
(** The bodies a constraint or contact joins. *)
Definition joins (s : cst) (e a b : nat) : Prop := cw_edge (c_w s) !! e = Some (a, b).
Definition this_client (s : cst) : option nat := cx_me (c_k s).
(** The entities whose inputs the client records and which it tells the worker
    are its own. *)
Definition owned (s : cst) (e : nat) : Prop := e ∈ cx_owned (c_k s).
(** Bodies, external entities and constraints, but not contact manifolds. *)
Definition simulated (s : cst) (e : nat) : Prop :=
  (e ∈ cw_node (c_w s) ∨ is_Some (cw_edge (c_w s) !! e)) ∧ e ∉ cw_man (c_w s).

(** *** Readings of what was sent *)
Definition announced (os : list cout) : list (nat * nat) :=
  concat ((λ o, match o with OMap ps => ps | _ => [] end) <$> os).
Definition sent_created (os : list cout) : list nat :=
  concat ((λ o, match o with OCreate es => es | _ => [] end) <$> os).
Definition sent_destroyed (os : list cout) : list nat :=
  concat ((λ o, match o with ODestroy es => es | _ => [] end) <$> os).
Definition sent_requests (os : list cout) : list (list nat * Z) :=
  concat ((λ o, match o with ORequest es t => [(es, t)] | _ => [] end) <$> os).
(** The entities the extrapolation worker has after these messages. *)
Fixpoint worker_from (w : gset nat) (os : list cout) : gset nat :=
  match os with
  | [] => w
  | OWCreate es _ :: os => worker_from (w ∪ list_to_set es) os
  | OWDestroy es :: os => worker_from (w ∖ list_to_set es) os
  | _ :: os => worker_from w os
  end.
Definition worker (os : list cout) : gset nat := worker_from ∅ os.

(** *** What happened in an execution *)
(** [os] leads from the start to [s]. *)
Definition start (s : cst) : Prop := ∃ delay hrtt dt extr, s = cinit delay hrtt dt extr.
Definition runs (s0 : cst) (os : list cop) (s : cst) : Prop := start s0 ∧ crun s0 os = Ok s.
(** [o] is a step of the execution [os], from [s] to [s']. *)
Definition step_of (s0 : cst) (os : list cop) (o : cop) (s s' : cst) : Prop :=
  ∃ os1 os2, os = os1 ++ o :: os2 ∧ runs s0 os1 s ∧ cstep s o = Ok s'.
(** The user made [e] a networked entity. *)
Definition user_tagged (os : list cop) (e : nat) : Prop := CUser (UTag e) ∈ os.
(** An action of the user took the networked entity [e] away. *)
Definition user_destroyed (s0 : cst) (os : list cop) (e : nat) : Prop :=
  ∃ u s s', step_of s0 os (CUser u) s s' ∧ networked s e ∧ ¬ lives s' e.

(** The entities of the packet are distinct, and none changes the owner of an
    entity that has one. *)
Definition keeps_owners (s : cst) (cs : list centry) : Prop :=
  NoDup (ce_r <$> cs) ∧
  ∀ c l o p, c ∈ cs → known s (ce_r c) = Some l → ce_owner c = Some o → owner_of s l = Some p →
    match o with Some r => ∃ m, p = Some m ∧ known s r = Some m | None => p = None end.

(** The local counterpart of the server's entity [r] was given up. *)
Definition lost (s s' : cst) (r l : nat) : Prop := known s r = Some l ∧ known s' r = None.
(** [r] is listed by an asset among [rs]. *)
Definition listed (s : cst) (rs : list nat) (r : nat) : Prop :=
  ∃ r0 l0 es i, r0 ∈ rs ∧ known s r0 = Some l0 ∧ asset_of s l0 = Some es ∧ (i, r) ∈ es.

(** The instant, in local time, that a snapshot stamped [ts] by the server
    describes, when received at [now]. *)
Definition snapshot_instant (s : cst) (now ts : Z) : Z :=
  match cx_sync (c_k s) with
  | Some d => (ts + d - cx_delay (c_k s))%Z
  | None => (now - cx_hrtt (c_k s) - cx_delay (c_k s))%Z
  end.
(** Every entity of the snapshot has a living counterpart, listed in [ls]. *)
Definition translates (s : cst) (rs ls : list nat) : Prop :=
  Forall2 (λ r l, known s r = Some l ∧ lives s l) rs ls.
(** What the client will report, request or hand over with its next update. *)
Definition created_next (s : cst) : list nat := cx_ccreated (c_k s).
Definition destroyed_next (s : cst) : list nat := cx_cdestroyed (c_k s).
Definition requests_next (s : cst) : list (list nat * Z) := cx_pending (c_k s).

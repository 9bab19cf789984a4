(** Histories of user actions and inputs, their execution on the server, and the
    server's queue of timed packets.

    Times are exact integers (ticks) instead of doubles; adding a time delta is
    any function on times, so rounding is covered by the statements that allow
    an arbitrary monotone function. *)
From Verif Require Export Outcome.
From Coq Require Export ZArith Sorted.
Local Open Scope Z_scope.

(** action_history::entry, include/edyn/networking/comp/action_history.hpp 18–29;
    [e_act] stands for the action index together with the serialized data. *)
Record entry := Entry { e_time : Z; e_act : nat }.
Global Instance entry_eq_dec : EqDecision entry.
Proof. solve_decision. Defined.

(** action_history, action_history.hpp 15, 31–32 ([last_timestamp {}] is zero). *)
Record hist := Hist { h_entries : list entry; h_last : Z }.
Global Instance hist_eq_dec : EqDecision hist.
Proof. solve_decision. Defined.
Definition h_new : hist := Hist [] 0.

(** The elements from [std::find_if(begin, end, p)] up to the end. *)
Fixpoint from_first {A} (p : A → bool) (l : list A) : list A :=
  match l with
  | [] => []
  | x :: l' => if p x then l else from_first p l'
  end.

(** action_history::erase_until, action_history.hpp 38–42. *)
Definition h_erase_until (t : Z) (h : hist) : hist :=
  Hist (from_first (λ e, t <=? e_time e) (h_entries h)) (h_last h).

(** action_history::merge, action_history.hpp 44–56. *)
Definition h_merge (h : hist) (other : list entry) : res hist :=
  assert_ (bool_decide (other ≠ [])) ≫= λ _,
  let entries := h_entries h ++ from_first (λ e, h_last h <? e_time e) other in
  Ok (Hist entries (match last entries with Some e => e_time e | None => h_last h end)).

(** [entry.timestamp += time_delta] for all entries. *)
Definition shift_entries (shift : Z → Z) (l : list entry) : list entry :=
  (λ e, Entry (shift (e_time e)) (e_act e)) <$> l.

(** One component of the pool in server_snapshot_importer_impl::merge_action_history,
    include/edyn/networking/util/server_snapshot_importer.hpp 330–348.  [sorted]
    is the received list as left by [history.sort()] (action_history.hpp 58–62):
    [std::sort] is not stable, so it may be any sorted permutation of what was
    received; the theorems quantify over it.  [current] is the [action_history]
    of the entity: [registry.patch] on an entity without one is undefined. *)
Definition srv_merge (shift : Z → Z) (sorted : list entry) (current : option hist) : res (option hist) :=
  match sorted with
  | [] => Ok current
  | _ =>
    match current with
    | None => UB
    | Some h => h_merge h (shift_entries shift sorted) ≫= λ h', Ok (Some h')
    end
  end.

(** ** Execution of actions on the server
    dispatch_actions, src/edyn/networking/sys/server_side.cpp 562–596. *)

(** The loop over the entries of one history, lines 573–589: what is passed to
    [import_action], the value of the local [last_timestamp] and the entries from
    [it] on.  [exec] is [client.last_executed_history_entry_timestamp] and [due]
    is [time - client.playout_delay]. *)
Fixpoint exec_entries (exec due last_ts : Z) (es : list entry) : list entry * Z * list entry :=
  match es with
  | [] => ([], last_ts, [])
  | e :: es' =>
    if e_time e <=? exec then exec_entries exec due last_ts es'
    else if due <? e_time e then ([], last_ts, es)
    else let '(x, t, r) := exec_entries exec due (e_time e) es' in (e :: x, t, r)
  end.

(** The server: every entity with an action history and an owner, in the order of
    the view, as (entity, owner, history), and per client the time of the last
    executed action.  Simplified: every owner is a live client, and the set of
    entities does not change. *)
Record dserver := DServer { ds_hists : list (nat * nat * hist); ds_exec : gmap nat Z }.
Definition exec_of (m : gmap nat Z) (c : nat) : Z := default 0 (m !! c).

(** The loop over the view, lines 567–595.  [due c] is [time - playout_delay] of
    client [c].  The log collects (entity, entry) passed to [import_action]. *)
Fixpoint dispatch (due : nat → Z) (hs : list (nat * nat * hist)) (m : gmap nat Z)
  : list (nat * entry) * list (nat * nat * hist) * gmap nat Z :=
  match hs with
  | [] => ([], [], m)
  | (e, c, h) :: hs' =>
    match h_entries h with
    | [] =>
      let '(log, hs2, m2) := dispatch due hs' m in (log, (e, c, h) :: hs2, m2)
    | _ =>
      let '(x, t, r) := exec_entries (exec_of m c) (due c) (exec_of m c) (h_entries h) in
      let '(log, hs2, m2) := dispatch due hs' (<[c := t]> m) in
      (((λ a, (e, a)) <$> x) ++ log, (e, c, Hist r (h_last h)) :: hs2, m2)
    end
  end.

(** What happens to the server: a history arrives for an entity (already sorted
    and shifted to local time), or the server is updated. *)
Inductive devent :=
| DMerge (e : nat) (l : list entry)
| DDispatch (due : nat → Z).

(** [registry.patch<action_history>(entity, merge)] on the entity. *)
Fixpoint merge_at (e : nat) (l : list entry) (hs : list (nat * nat * hist)) : res (list (nat * nat * hist)) :=
  match hs with
  | [] => UB
  | (e', c, h) :: hs' =>
    if bool_decide (e' = e) then h_merge h l ≫= λ h', Ok ((e', c, h') :: hs')
    else merge_at e l hs' ≫= λ hs2, Ok ((e', c, h) :: hs2)
  end.
Definition dstep (s : dserver) (ev : devent) : res (dserver * list (nat * entry)) :=
  match ev with
  | DMerge e l => merge_at e l (ds_hists s) ≫= λ hs, Ok (DServer hs (ds_exec s), [])
  | DDispatch due =>
    let '(log, hs, m) := dispatch due (ds_hists s) (ds_exec s) in Ok (DServer hs m, log)
  end.
(** Final state and, per event, what was executed. *)
Fixpoint drun (s : dserver) (evs : list devent) : res (dserver * list (list (nat * entry))) :=
  match evs with
  | [] => Ok (s, [])
  | ev :: evs' =>
    dstep s ev ≫= λ '(s', x), drun s' evs' ≫= λ '(s2, xs), Ok (s2, x :: xs)
  end.

(** ** The queue of timed packets of a client *)
(** timed_packet, include/edyn/networking/comp/remote_client.hpp; packets are numbers. *)
Record tpacket := TPacket { p_time : Z; p_id : nat }.
Global Instance tpacket_eq_dec : EqDecision tpacket.
Proof. solve_decision. Defined.

(** insert_packet_to_queue, server_side.cpp 618–624. *)
Fixpoint q_insert (p : tpacket) (q : list tpacket) : list tpacket :=
  match q with
  | [] => [p]
  | x :: q' => if p_time p <? p_time x then p :: q else x :: q_insert p q'
  end.
(** The timestamp given to a packet by enqueue_packet, server_side.cpp 626–638 and
    672–678: [synced] is [clock_sync.count > 0], [delta] its time delta and
    [half_rtt] is half of the round trip time. *)
Definition packet_time (synced : bool) (sent delta time half_rtt : Z) : Z :=
  if synced then Z.min (sent + delta) time else time - half_rtt.
(** The loop of server_process_timed_packets for one client, server_side.cpp
    311–323: processed packets and what remains.  [due] is [time - playout_delay].
    Simplified: processing a packet does not change the queue (it does not). *)
Fixpoint q_process (due : Z) (q : list tpacket) : list tpacket * list tpacket :=
  match q with
  | [] => ([], [])
  | x :: q' => if due <? p_time x then ([], q) else let '(a, b) := q_process due q' in (x :: a, b)
  end.
Inductive qevent := QArrive (p : tpacket) | QUpdate (due : Z).
Definition qstep (q : list tpacket) (ev : qevent) : list tpacket * list tpacket :=
  match ev with
  | QArrive p => (q_insert p q, [])
  | QUpdate due => let '(a, b) := q_process due q in (b, a)
  end.
Fixpoint qrun (q : list tpacket) (evs : list qevent) : list tpacket * list (list tpacket) :=
  match evs with
  | [] => (q, [])
  | ev :: evs' =>
    let '(q', x) := qstep q ev in let '(q2, xs) := qrun q' evs' in (q2, x :: xs)
  end.

(** ** The client's history of inputs and actions used by extrapolation
    include/edyn/networking/util/input_state_history.hpp *)

(** input_state_history_writer_impl::add_actions, lines 127–143 and 145–165, for one
    entity: [src] is the history found in the registry or snapshot (with its
    timestamps already shifted). The whole [action_history] is copied the first
    time, with its [last_timestamp]. *)
Definition w_add_actions (store : option hist) (src : hist) : res (option hist) :=
  if bool_decide (h_entries src = []) then Ok store
  else match store with
       | None => Ok (Some src)
       | Some h => h_merge h (h_entries src) ≫= λ h', Ok (Some h')
       end.
(** erase_until<Component>, lines 167–181: inputs up to and including [t]. *)
Definition w_erase_inputs (t : Z) (l : list entry) : list entry :=
  from_first (λ e, t <? e_time e) l.
(** import_each_input / import_each_action, lines 258–304, for one entity that is
    mapped and valid: the entries imported, in order. *)
Fixpoint r_import_each (start len : Z) (l : list entry) : list entry :=
  match l with
  | [] => []
  | e :: l' =>
    if start + len <? e_time e then []
    else if start <=? e_time e then e :: r_import_each start len l' else r_import_each start len l'
  end.
(** import_latest_inputs, lines 306–324, for one entity: [find_if] on the reverse
    range. *)
Definition r_import_latest (t : Z) (l : list entry) : option entry :=
  head (from_first (λ e, e_time e <=? t) (reverse l)).

(** extrapolation_worker::extrapolate, src/edyn/networking/extrapolation/extrapolation_worker.cpp
    525–543 with begin_step 493–510, apply_history 282–289 and finish_step 512–523,
    reduced to what is imported from one history in each step: [n] steps from
    [t] with step [dt]. *)
Fixpoint x_steps (t dt : Z) (n : nat) (l : list entry) : list (list entry) :=
  match n with
  | O => []
  | S n' => r_import_each (t - dt) dt l :: x_steps (t + dt) dt n' l
  end.

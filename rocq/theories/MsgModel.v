(** Model of message queues (include/edyn/parallel/message_queue.hpp) and the
    message dispatcher (include/edyn/parallel/message_dispatcher.hpp).  An
    operation is one critical section, or the handling of one message outside of
    the lock; a history is any interleaving of them by any threads.  Handlers
    that send messages are histories with sends between deliveries.  The push
    signal is in the extrapolation worker model. *)
From Verif Require Import Outcome.

(** any_message, message_queue.hpp:14-17; the type stands for entt::type_id. *)
Record msg := Msg { g_src : nat; g_type : nat; g_val : nat }.
(** message_queue_handle: the queue object it points to and its MessageTypes,
    and the messages moved out by an update in progress (the local [messages]
    of message_queue.hpp:37-46). *)
Record handle := Handle { h_queue : nat; h_types : list nat; h_flight : list msg }.
Inductive mev :=
| ESent (q : nat) (m : msg)           (* entered queue object q *)
| EDropped (name : nat) (m : msg)     (* no queue of that name *)
| ETake (h : nat) (ms : list msg)     (* an update of h emptied the queue *)
| EDeliver (h : nat) (m : msg).       (* handlers of h called *)
(** The queue objects ever created ([None]: destroyed), the names in use. *)
Record mst := MSt { m_objs : list (option (list msg)); m_names : gmap nat nat; m_handles : list handle; m_log : list mev }.

Inductive mop :=
| MMake (name : nat) (types : list nat)
| MSend (dst : nat) (m : msg)
| MConsume (h : nat)
| MDeliver (h : nat)
| MClear.

Definition m_emit (s : mst) (e : mev) : mst := MSt (m_objs s) (m_names s) (m_handles s) (m_log s ++ [e]).
(** message_dispatcher.hpp:68-74 *)
Definition m_make (s : mst) (name : nat) (types : list nat) : mst :=
  match m_names s !! name with
  | Some q => MSt (m_objs s) (m_names s) (m_handles s ++ [Handle q types []]) (m_log s)
  | None =>
    let q := length (m_objs s) in
    MSt (m_objs s ++ [Some []]) (<[name := q]> (m_names s)) (m_handles s ++ [Handle q types []]) (m_log s)
  end.
(** message_dispatcher.hpp:77-82, message_queue.hpp:28-33 *)
Definition m_send (s : mst) (dst : nat) (m : msg) : res mst :=
  match m_names s !! dst with
  | None => Ok (m_emit s (EDropped dst m))
  | Some q =>
    match m_objs s !! q with
    | Some (Some ms) => Ok (m_emit (MSt (<[q := Some (ms ++ [m])]> (m_objs s)) (m_names s) (m_handles s) (m_log s)) (ESent q m))
    | _ => UB
    end
  end.
(** The critical section of message_queue.hpp:37-39, called by
    message_queue_handle::update.  A handle whose queue was destroyed: use after
    free.  An update inside an update of the same handle is not modelled: UB. *)
Definition m_consume (s : mst) (h : nat) : res mst :=
  d ← opt_res (m_handles s !! h);
  match m_objs s !! h_queue d, h_flight d with
  | Some (Some ms), [] =>
    Ok (m_emit (MSt (<[h_queue d := Some []]> (m_objs s)) (m_names s) (<[h := Handle (h_queue d) (h_types d) ms]> (m_handles s)) (m_log s)) (ETake h ms))
  | _, _ => UB
  end.
(** One turn of the loop message_queue.hpp:42-44: message_dispatcher.hpp:20-26,
    49-51; the types of a handle are distinct, at most one matches. *)
Definition m_deliver (s : mst) (h : nat) : res mst :=
  d ← opt_res (m_handles s !! h);
  match h_flight d with
  | [] => Ok s
  | m :: ms =>
    let s := MSt (m_objs s) (m_names s) (<[h := Handle (h_queue d) (h_types d) ms]> (m_handles s)) (m_log s) in
    Ok (if decide (g_type m ∈ h_types d) then m_emit s (EDeliver h m) else s)
  end.
(** message_dispatcher.hpp:84-87; taken as one critical section although the
    code only takes the lock in shared mode. *)
Definition m_clear (s : mst) : mst := MSt ((λ _, None) <$> m_objs s) ∅ (m_handles s) (m_log s).

Definition m_step (s : mst) (o : mop) : res mst :=
  match o with
  | MMake name types => Ok (m_make s name types)
  | MSend dst m => m_send s dst m
  | MConsume h => m_consume s h
  | MDeliver h => m_deliver s h
  | MClear => Ok (m_clear s)
  end.
Definition m_init : mst := MSt [] ∅ [] [].
Definition m_run (s : mst) (ops : list mop) : res mst := foldl (λ s o, s ← s; m_step s o) (Ok s) ops.

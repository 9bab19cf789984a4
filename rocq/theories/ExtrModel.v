(** Model of the thread of the extrapolation worker and of the threads that
    talk to it: src/edyn/networking/extrapolation/extrapolation_worker.cpp
    [run], [stop], [on_push_message], [on_extrapolation_request],
    [on_extrapolation_operation_create], [on_extrapolation_operation_destroy],
    [extrapolate], and include/edyn/parallel/message_queue.hpp.

    Interleaving semantics: one step is one atomic access, one critical section
    or the handling of one message.  What an extrapolation computes is not
    modelled here (see HistModel.v and ExtrTime.v), only when it runs, on which
    request, and whether it ends with a result. *)
From Verif Require Import Outcome.

(** [extrapolation_request]: the entities of its snapshot. *)
Record xreq := XReqOf { rq_id : nat; rq_ents : list nat }.
(** The messages the worker listens to, extrapolation_worker.cpp 52–59; the
    four setters are one. *)
Inductive xmsg :=
| XReq (r : xreq)
| XCreate (es : list nat)
| XDestroy (es : list nat)
| XSet (n : nat).
Inductive xev :=
| ESent (m : xmsg)       (* entered the queue *)
| EHandled (m : xmsg)    (* handler called *)
| EDrop (r : xreq)       (* erased unprocessed *)
| EBegin (r : xreq)      (* extrapolation started *)
| EResult (r : xreq)     (* result sent *)
| EAbort (r : xreq).     (* snapshot names an unknown entity *)

(** What the other threads do. *)
Inductive sop := SSend (m : xmsg) | SStop | SDelete.
Inductive spc :=
| SNext (p : list sop)
| SPushed (p : list sop)              (* queue mutex held, message in *)
| SStored (p : list sop)              (* queue mutex held, [m_has_messages] set *)
| SStopped (del : bool) (p : list sop) (* [m_running] cleared *)
| SFree (p : list sop).               (* destructor body done *)
(** The worker thread. *)
Inductive xpc :=
| XTest                       (* while (m_running) *)
| XPred                       (* in wait: about to exchange m_has_messages *)
| XPredRun                    (* in wait: about to load m_running *)
| XBlock                      (* predicate was false: about to block *)
| XSleep (k : bool)           (* blocked; [k]: woken *)
| XUpdate                     (* about to take the messages *)
| XDeliver                    (* handling the messages taken *)
| XTake                       (* about to look at m_requests *)
| XRun (r : xreq) (ok : bool) (* extrapolating; [ok]: all entities known *)
| XCond                       (* condition of do … while *)
| XDone.
Record xst := XSt {
  x_running : bool; x_has : bool; x_queue : list xmsg; x_flight : list xmsg;
  x_reqs : list xreq; x_known : gset nat; x_pc : xpc; x_cl : list spc;
  x_freed : bool; x_log : list xev }.

Definition xset (s : xst) (p : xpc) : xst :=
  XSt (x_running s) (x_has s) (x_queue s) (x_flight s) (x_reqs s) (x_known s) p (x_cl s)
      (x_freed s) (x_log s).
Definition xclear (s : xst) : xst :=
  XSt (x_running s) false (x_queue s) (x_flight s) (x_reqs s) (x_known s) (x_pc s) (x_cl s)
      (x_freed s) (x_log s).
Definition xcl (s : xst) (i : nat) (p : spc) : xst :=
  XSt (x_running s) (x_has s) (x_queue s) (x_flight s) (x_reqs s) (x_known s) (x_pc s)
      (<[i := p]> (x_cl s)) (x_freed s) (x_log s).
Definition xemit (s : xst) (e : xev) : xst :=
  XSt (x_running s) (x_has s) (x_queue s) (x_flight s) (x_reqs s) (x_known s) (x_pc s) (x_cl s)
      (x_freed s) (x_log s ++ [e]).
Definition xreqs (s : xst) (l : list xreq) : xst :=
  XSt (x_running s) (x_has s) (x_queue s) (x_flight s) l (x_known s) (x_pc s) (x_cl s)
      (x_freed s) (x_log s).
Definition xknown (s : xst) (k : gset nat) : xst :=
  XSt (x_running s) (x_has s) (x_queue s) (x_flight s) (x_reqs s) k (x_pc s) (x_cl s)
      (x_freed s) (x_log s).

(** [m_max_requests], extrapolation_worker.hpp 94. *)
Definition max_requests : nat := 3.

(** [on_extrapolation_request], extrapolation_worker.cpp 146–152. *)
Definition on_request (s : xst) (r : xreq) : xst :=
  match x_reqs s with
  | q :: l => if decide (length (x_reqs s) = max_requests)
              then xreqs (xemit s (EDrop q)) (l ++ [r])
              else xreqs s (x_reqs s ++ [r])
  | [] => xreqs s [r]
  end.
(** The handlers: [on_extrapolation_operation_create] 175–249 and [_destroy]
    154–173 as far as they change which remote entities are mapped. *)
Definition x_handle (s : xst) (m : xmsg) : xst :=
  match m with
  | XReq r => xemit (on_request s r) (EHandled m)
  | XCreate es => xemit (xknown s (x_known s ∪ list_to_set es)) (EHandled m)
  | XDestroy es => xemit (xknown s (x_known s ∖ list_to_set es)) (EHandled m)
  | XSet _ => xemit s (EHandled m)
  end.

(** Some thread is inside [message_queue::push], message_queue.hpp 28–33. *)
Definition in_push (p : spc) : bool :=
  match p with SPushed _ | SStored _ => true | _ => false end.
Definition xlocked (s : xst) : bool := existsb in_push (x_cl s).
(** [begin_extrapolation], 298–303: every entity of the snapshot is mapped. *)
Definition all_known (k : gset nat) (r : xreq) : bool := bool_decide (Forall (.∈ k) (rq_ents r)).

(** [run], extrapolation_worker.cpp 545–569.  Using the object after it was
    destroyed is undefined. *)
Definition x_worker (s : xst) : res xst :=
  match x_pc s with
  | XDone => Ok s
  | XSleep false => Ok s
  | _ =>
    if x_freed s then UB else
    match x_pc s with
    | XTest => Ok (xset s (if x_running s then XPred else XDone))          (* 548 *)
    | XPred => Ok (xset (xclear s) (if x_has s then XUpdate else XPredRun)) (* 552 *)
    | XPredRun => Ok (xset s (if x_running s then XBlock else XUpdate))     (* 553 *)
    | XBlock => Ok (xset s (XSleep false))                                  (* 551 *)
    | XSleep _ => Ok (xset s XPred)
    | XUpdate =>                                                            (* 558 *)
        if xlocked s then Ok s else
        Ok (XSt (x_running s) (x_has s) [] (x_queue s) (x_reqs s) (x_known s) XDeliver (x_cl s)
                (x_freed s) (x_log s))
    | XDeliver =>
        match x_flight s with
        | [] => Ok (xset s XTake)
        | m :: ms =>
            Ok (x_handle (XSt (x_running s) (x_has s) (x_queue s) ms (x_reqs s) (x_known s) XDeliver
                              (x_cl s) (x_freed s) (x_log s)) m)
        end
    | XTake =>                                                              (* 560–562 *)
        match x_reqs s with
        | [] => Ok (xset s XCond)
        | r :: l => Ok (xset (xreqs (xemit s (EBegin r)) l) (XRun r (all_known (x_known s) r)))
        end
    | XRun r ok => Ok (xset (xemit s (if ok then EResult r else EAbort r)) XCond) (* 563 *)
    | XCond =>                                                              (* 565 *)
        match x_reqs s with
        | [] => Ok (xset s XTest)
        | _ => Ok (xset (xclear s) (if x_has s then XUpdate else XTest))
        end
    | XDone => Ok s
    end
  end.

(** [m_cv.notify_one()]. *)
Definition x_notify (s : xst) : xst :=
  match x_pc s with XSleep _ => xset s (XSleep true) | _ => s end.

(** One step of another thread: [message_queue::push] with [on_push_message]
    (extrapolation_worker.cpp 275–278) called inside the critical section;
    [stop] (116–119); the destructor (86–88). *)
Definition x_sender (s : xst) (i : nat) : res xst :=
  match x_cl s !! i with
  | Some (SNext (SSend m :: p)) =>
      if x_freed s then UB else
      if xlocked s then Ok s else
      Ok (xemit (XSt (x_running s) (x_has s) (x_queue s ++ [m]) (x_flight s) (x_reqs s) (x_known s)
                     (x_pc s) (<[i := SPushed p]> (x_cl s)) (x_freed s) (x_log s)) (ESent m))
  | Some (SPushed p) =>
      if x_freed s then UB else
      Ok (XSt (x_running s) true (x_queue s) (x_flight s) (x_reqs s) (x_known s) (x_pc s)
              (<[i := SStored p]> (x_cl s)) (x_freed s) (x_log s))
  | Some (SStored p) =>
      if x_freed s then UB else Ok (x_notify (xcl s i (SNext p)))
  | Some (SNext (SStop :: p)) =>
      if x_freed s then UB else
      Ok (XSt false (x_has s) (x_queue s) (x_flight s) (x_reqs s) (x_known s) (x_pc s)
              (<[i := SStopped false p]> (x_cl s)) (x_freed s) (x_log s))
  | Some (SNext (SDelete :: p)) =>
      if x_freed s then UB else
      Ok (XSt false (x_has s) (x_queue s) (x_flight s) (x_reqs s) (x_known s) (x_pc s)
              (<[i := SStopped true p]> (x_cl s)) (x_freed s) (x_log s))
  | Some (SStopped del p) =>
      if x_freed s then UB else
      Ok (x_notify (xcl s i (if del then SFree p else SNext p)))
  | Some (SFree p) =>
      if x_freed s then UB else
      Ok (XSt (x_running s) (x_has s) (x_queue s) (x_flight s) (x_reqs s) (x_known s) (x_pc s)
              (<[i := SNext p]> (x_cl s)) true (x_log s))
  | _ => Ok s
  end.

(** A step: the worker, thread [i], or a spurious wake-up of the worker. *)
Inductive xlabel := LWorker | LSender (i : nat) | LSpurious.
Definition x_step (s : xst) (l : xlabel) : res xst :=
  match l with
  | LWorker => x_worker s
  | LSender i => x_sender s i
  | LSpurious => Ok (x_notify s)
  end.
Fixpoint x_run (s : xst) (ls : list xlabel) : res xst :=
  match ls with
  | [] => Ok s
  | l :: ls => s ← x_step s l; x_run s ls
  end.
(** After [start], 107–114. *)
Definition x_init (progs : list (list sop)) : xst :=
  XSt true false [] [] [] ∅ XTest (SNext <$> progs) false [].

(** What is observable of the extrapolation worker, in terms of its log alone. *)
From Verif Require Import Outcome ExtrModel.

Definition sent (l : list xev) : list xmsg := omap (λ e, match e with ESent m => Some m | _ => None end) l.
Definition handled (l : list xev) : list xmsg := omap (λ e, match e with EHandled m => Some m | _ => None end) l.
Definition requests (l : list xmsg) : list xreq := omap (λ m, match m with XReq r => Some r | _ => None end) l.
(** Requests that left the list of pending requests: started or dropped. *)
Definition left_list (l : list xev) : list xreq :=
  omap (λ e, match e with EDrop r | EBegin r => Some r | _ => None end) l.
Definition begun (l : list xev) : list xreq := omap (λ e, match e with EBegin r => Some r | _ => None end) l.
Definition dropped (l : list xev) : list xreq := omap (λ e, match e with EDrop r => Some r | _ => None end) l.
(** The requests received and not yet started or dropped. *)
Definition pending (l : list xev) : list xreq := drop (length (left_list l)) (requests (handled l)).

(** The remote entities the handled messages make known. *)
Definition known_step (k : gset nat) (m : xmsg) : gset nat :=
  match m with
  | XCreate es => k ∪ list_to_set es
  | XDestroy es => k ∖ list_to_set es
  | _ => k
  end.
Definition known_after (ms : list xmsg) : gset nat := foldl known_step ∅ ms.

(** How each extrapolation ended. *)
Definition ends (l : list xev) : list (xreq * bool) :=
  omap (λ e, match e with EResult r => Some (r, true) | EAbort r => Some (r, false) | _ => None end) l.

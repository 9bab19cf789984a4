(** Specification vocabulary for messages. *)
From Verif Require Import Outcome MsgModel.

(** Messages that entered queue [q]; were taken by an update of some handle;
    were handed to the handlers of [h]. *)
Definition sent (q : nat) (l : list mev) : list msg :=
  omap (λ e, match e with ESent q' m => if decide (q' = q) then Some m else None | _ => None end) l.
Definition taken_by (hs : nat → bool) (l : list mev) : list msg :=
  l ≫= λ e, match e with ETake h ms => if hs h then ms else [] | _ => [] end.
Definition delivered (h : nat) (l : list mev) : list msg :=
  omap (λ e, match e with EDeliver h' m => if decide (h' = h) then Some m else None | _ => None end) l.
(** Messages a handle with these types listens to. *)
Definition heard (types : list nat) (l : list msg) : list msg := filter (λ m, g_type m ∈ types) l.
(** Handles reading queue [q]. *)
Definition reads (s : mst) (q h : nat) : bool :=
  match m_handles s !! h with Some d => bool_decide (h_queue d = q) | None => false end.
(** [h] is the only handle of its queue. *)
Definition sole (s : mst) (h q : nat) : Prop := ∀ h', reads s q h' = true ↔ h' = h.
Definition flight (s : mst) (h : nat) : list msg := match m_handles s !! h with Some d => h_flight d | None => [] end.
Definition waiting (s : mst) (q : nat) : list msg := match m_objs s !! q with Some (Some ms) => ms | _ => [] end.
Definition alive (s : mst) (q : nat) : Prop := ∃ ms, m_objs s !! q = Some (Some ms).

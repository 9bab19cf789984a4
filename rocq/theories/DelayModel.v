(** Playout delay of a client: calculate_client_playout_delay of
    src/edyn/networking/sys/server_side.cpp, 513–545, in exact rationals. *)
From Coq Require Import QArith Qabs Qminmax.
From Verif Require Export Outcome.

(** What one evaluation sees: the client's own round trip time, those of the owners of
    entities in its area of interest (without owner: none), and the settings. *)
Record view := View { v_own : Q; v_others : list (option Q); v_mult : Q; v_max : Q }.

(** The loop of 520–529: std::max. *)
Definition biggest_rtt (v : view) : Q :=
  foldl (λ acc o, match o with Some x => Qmax x acc | None => acc end) (v_own v) (v_others v).
(** 533–535 *)
Definition computed (v : view) : Q := Qmin (biggest_rtt v / 2 * v_mult v) (v_max v).
(** 538–544: the new delay and the packet, if any. *)
Definition delay_step (d : Q) (v : view) : Q * option Q :=
  if negb (Qle_bool (Qabs (computed v - d)) (d * (6 # 100))) then (computed v, Some (computed v)) else (d, None).
(** The delay of a new client is 0 (remote_client.hpp). *)
Definition delay_run (d : Q) (vs : list view) : Q := foldl (λ d v, (delay_step d v).1) d vs.
(** The client uses what it was told last (set_playout_delay packet). *)
Definition told_run (c : Q) (d : Q) (vs : list view) : Q :=
  (foldl (λ '(c, d) v, let '(d', p) := delay_step d v in (default c p, d')) (c, d) vs).1.

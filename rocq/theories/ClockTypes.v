(** Data of the clock synchronisation, and the arithmetic it uses. *)
From stdpp Require Export prelude list.

(** Operations on double used by clock_sync.cpp. No law is assumed. *)
Record num (D : Type) := Num {
  n_add : D → D → D; n_sub : D → D → D; n_mul : D → D → D; n_div : D → D → D;
  n_abs : D → D; n_gt : D → D → bool; n_nat : nat → D; n_tenth : D; n_loss : D }.
Arguments Num {_}. Arguments n_add {_}. Arguments n_sub {_}. Arguments n_mul {_}. Arguments n_div {_}.
Arguments n_abs {_}. Arguments n_gt {_}. Arguments n_nat {_}. Arguments n_tenth {_}. Arguments n_loss {_}.

(** What happens at one end of the connection: time passes, with the current
    estimate of the round-trip time, or a time response arrives. [r] is the value
    the call of std::rand made during the event returns, if there is one. *)
Inductive cs_event D :=
| CsUpdate (time avg_rtt : D) (r : nat)
| CsResponse (id : nat) (timestamp time : D) (r : nat).
Arguments CsUpdate {_}. Arguments CsResponse {_}.

(** What can be observed: a request is sent at a time, a response is taken into
    account at a time, a sample of the offset is kept. *)
Inductive cs_log D :=
| Sent (id : nat) (t : D)
| Recv (id : nat) (timestamp t : D)
| Sample (d : D).
Arguments Sent {_}. Arguments Recv {_}. Arguments Sample {_}.

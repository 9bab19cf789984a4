(** Recently modified components of an entity.
    include/edyn/networking/comp/exporter_modified_components.hpp and the update
    of the exporters.  Milliseconds and microseconds are unbounded integers (the
    code uses 16-bit remaining times, which never exceed 400, and doubles for the
    time). *)
From Verif Require Export Outcome.
From Coq Require Export ZArith.
Local Open Scope Z_scope.

(** comp_index_time, lines 12–15. *)
Record mentry := MEntry { m_idx : nat; m_rem : Z }.
Global Instance mentry_eq_dec : EqDecision mentry.
Proof. solve_decision. Defined.
(** [duration], line 19. *)
Definition duration : Z := 400.

(** The first [count] entries of the array; [n] is NumComponents.
    bump_index, lines 30–44. *)
Definition mc_bump (n : nat) (i : nat) (l : list mentry) : res (list mentry) :=
  assert_ (bool_decide (length l < n)%nat) ≫= λ _,
  if existsb (λ x, bool_decide (m_idx x = i)) l
  then Ok ((λ x, if bool_decide (m_idx x = i) then MEntry (m_idx x) duration else x) <$> l)
  else Ok (l ++ [MEntry i duration]).

(** [entry[i] = entry[--count]] *)
Definition swap_pop {A} (i : nat) (l : list A) : list A :=
  match last l with
  | Some x => take (length l - 1) (<[i := x]> l)
  | None => l
  end.
(** The loop of decay, lines 46–57. *)
Fixpoint mc_decay_loop (fuel : nat) (ms : Z) (i : nat) (l : list mentry) : res (list mentry) :=
  match fuel with
  | O => NoFuel
  | S fuel =>
    match l !! i with
    | None => Ok l
    | Some x =>
      if m_rem x <? ms then mc_decay_loop fuel ms i (swap_pop i l)
      else mc_decay_loop fuel ms (S i) (<[i := MEntry (m_idx x) (m_rem x - ms)]> l)
    end
  end.
Definition mc_decay (ms : Z) (l : list mentry) : res (list mentry) :=
  mc_decay_loop (S (length l)) ms 0 l.

Inductive mop := Bump (i : nat) | Decay (ms : Z).
Definition mstep (n : nat) (l : list mentry) (o : mop) : res (list mentry) :=
  match o with Bump i => mc_bump n i l | Decay ms => mc_decay ms l end.
Fixpoint mrun (n : nat) (l : list mentry) (os : list mop) : res (list mentry) :=
  match os with [] => Ok l | o :: os' => mstep n l o ≫= λ l', mrun n l' os' end.

(** server_snapshot_exporter_impl::update (server_snapshot_exporter.hpp 277–296) and
    client_snapshot_exporter_impl::update (client_snapshot_exporter.hpp 325–333) for
    one entity; times in microseconds.  The bump of moving bodies at the end of the
    server's update is a separate [Modify]. *)
Record exporter := Exporter { x_last : Z; x_mod : list mentry }.
Inductive xop := Modify (i : nat) | Update (time : Z).
Definition xstep (n : nat) (s : exporter) (o : xop) : res exporter :=
  match o with
  | Modify i => mc_bump n i (x_mod s) ≫= λ l, Ok (Exporter (x_last s) l)
  | Update time =>
    assert_ (x_last s <=? time) ≫= λ _,
    mc_decay ((time - x_last s) / 1000) (x_mod s) ≫= λ l, Ok (Exporter time l)
  end.
Fixpoint xrun (n : nat) (s : exporter) (os : list xop) : res exporter :=
  match os with [] => Ok s | o :: os' => xstep n s o ≫= λ s', xrun n s' os' end.
Definition exporter_init : exporter := Exporter 0 [].

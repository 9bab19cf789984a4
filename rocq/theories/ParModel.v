(** Model for C52: islands solved in parallel.  island_solver.cpp 39–74 (context),
    357–440 ([integrate_velocities], [apply_solution]), 442–511
    ([island_solver_update]), 513–543 ([run_island_solver_seq_mt],
    [run_island_solver_seq]); solver.cpp 408–428; atomic_counter_sync.hpp.

    The memory maps every entity to its components.  What packing the rows,
    one solver iteration, storing the impulses and one position iteration of an
    island do to it is arbitrary (modelled in RowModel.v); so is the integration of
    one body.  Any number of worker threads take jobs from the queue in any order;
    a job runs as one step.  Tasks of size one are one job; the task of 435–437 is
    split into jobs as an arbitrary [chunks] says, its completion runs after the
    last of them (C16, C17). *)
From Verif Require Import Outcome.

Section Model.
Context {V : Type}.
Notation mem := (gmap nat V).
Record code := Code {
  k_pack : nat → mem → mem;             (* pack_rows, 451 / 527 *)
  k_solve : nat → mem → mem;            (* solve, 461 / 530 *)
  k_assign : nat → mem → mem;           (* assign_applied_impulses, 484 / 536 *)
  k_pos : nat → mem → mem * bool;       (* solve_position_constraints, 500 / 539 *)
  k_body : V → V;                       (* body of the loop 362–374 *)
  k_nodes : nat → list nat              (* island::nodes *)
}.
Variable k : code.

(** integrate_velocities, 357–376 *)
Definition integrate (es : list nat) (m : mem) : mem := foldl (λ m e, alter (k_body k) e m) m es.
(** 538–542 *)
Fixpoint pos_loop (n : nat) (i : nat) (m : mem) : mem :=
  match n with
  | O => m
  | S n => let '(m, stop) := k_pos k i m in if stop then m else pos_loop n i m
  end.
(** run_island_solver_seq, 521–543 *)
Definition run_seq (n p i : nat) (m : mem) : mem :=
  let m := k_pack k i m in
  let m := Nat.iter n (k_solve k i) m in
  let m := integrate (k_nodes k i) m in
  let m := k_assign k i m in
  pos_loop p i m.
(** solver.cpp 423–427 *)
Definition run_all_seq (n p : nat) (isles : list nat) (m : mem) : mem :=
  foldl (λ m i, run_seq n p i m) m isles.

(** island_solver_state *)
Inductive sst := SPack | SSolve | SAssign | SApply | SPos.
(** island_solver_context: [state] and [iteration]; the numbers of iterations are
    the same for all. *)
Record ctx := Ctx { c_state : sst; c_iter : nat }.
Inductive job :=
| JStep (i : nat)                       (* island_solver_update on the context of island i *)
| JChunk (i : nat) (es : list nat).     (* apply_solution_context::task_func *)
Definition job_isle (j : job) : nat := match j with JStep i | JChunk i _ => i end.

Record pst := PSt {
  p_mem : mem;
  p_ctx : gmap nat ctx;                 (* contexts not yet deleted, by island *)
  p_left : gmap nat nat;                (* jobs left of the task of 437, by island *)
  p_jobs : list job;                    (* queued *)
  p_todo : list nat;                    (* islands the loop 414–419 still has to start *)
  p_count : nat                         (* the counter *)
}.

(** The conversion of [unsigned] to [uint8_t], 59–60. *)
Definition u8 (n : nat) : nat := n mod 256.

Variable n p : nat.                     (* the settings *)
Variable chunks : nat → list (list nat).
Definition max_sequential_size : nat := 64.

(** One turn of the loop 414–419; 516–518. *)
Definition p_start (s : pst) : pst :=
  match p_todo s with
  | [] => s
  | i :: todo =>
      PSt (p_mem s) (<[i := Ctx SPack 0]> (p_ctx s)) (p_left s) (p_jobs s ++ [JStep i]) todo (p_count s)
  end.

(** decrement_counter and [delete &ctx], 70–73, 492–493, 503–504. *)
Definition p_finish (i : nat) (s : pst) : res pst :=
  _ ← assert_ (bool_decide (0 < p_count s));
  Ok (PSt (p_mem s) (delete i (p_ctx s)) (p_left s) (p_jobs s) (p_todo s) (p_count s - 1)).

(** Enqueue the next step with a new context. *)
Definition p_again (i : nat) (c : ctx) (m : mem) (s : pst) : pst :=
  PSt m (<[i := c]> (p_ctx s)) (p_left s) (p_jobs s ++ [JStep i]) (p_todo s) (p_count s).

(** island_solver_update, 442–511; a deleted context is [UB]. *)
Definition p_update (i : nat) (s : pst) : res pst :=
  c ← opt_res (p_ctx s !! i);
  let m := p_mem s in
  match c_state c with
  | SPack => Ok (p_again i (Ctx SSolve 0) (k_pack k i m) s)
  | SSolve =>
      let it := u8 (c_iter c + 1) in
      Ok (p_again i (Ctx (if bool_decide (u8 n ≤ it) then SApply else SSolve) it) (k_solve k i m) s)
  | SApply =>
      let c := Ctx SAssign (c_iter c) in
      if bool_decide (length (k_nodes k i) ≤ max_sequential_size)
      then Ok (p_again i c (integrate (k_nodes k i) m) s)
      else Ok (PSt m (<[i := c]> (p_ctx s)) (<[i := length (chunks i)]> (p_left s))
                   (p_jobs s ++ (JChunk i <$> chunks i)) (p_todo s) (p_count s))
  | SAssign =>
      let m := k_assign k i m in
      if bool_decide (0 < u8 p) then Ok (p_again i (Ctx SPos 0) m s)
      else p_finish i (PSt m (p_ctx s) (p_left s) (p_jobs s) (p_todo s) (p_count s))
  | SPos =>
      let '(m, stop) := k_pos k i m in
      let s := PSt m (p_ctx s) (p_left s) (p_jobs s) (p_todo s) (p_count s) in
      if stop then p_finish i s
      else
        let it := u8 (c_iter c + 1) in
        if bool_decide (u8 p ≤ it) then p_finish i s
        else Ok (p_again i (Ctx SPos it) m s)
  end.

(** task_func 387–398; after the last job the completion, 400–404. *)
Definition p_chunk (i : nat) (es : list nat) (s : pst) : res pst :=
  l ← opt_res (p_left s !! i);
  _ ← require_ (bool_decide (0 < l));
  let s := PSt (integrate es (p_mem s)) (p_ctx s) (<[i := l - 1]> (p_left s)) (p_jobs s) (p_todo s) (p_count s) in
  Ok (if bool_decide (l = 1)
      then PSt (p_mem s) (p_ctx s) (p_left s) (p_jobs s ++ [JStep i]) (p_todo s) (p_count s) else s).

Inductive pop :=
| PStart               (* the main thread *)
| PRun (j : nat).      (* a worker takes and runs the j-th queued job *)
Definition p_step (s : pst) (o : pop) : res pst :=
  match o with
  | PStart => Ok (p_start s)
  | PRun j =>
      match p_jobs s !! j with
      | None => Ok s
      | Some b =>
          let s := PSt (p_mem s) (p_ctx s) (p_left s) (delete j (p_jobs s)) (p_todo s) (p_count s) in
          match b with
          | JStep i => p_update i s
          | JChunk i es => p_chunk i es s
          end
      end
  end.
Fixpoint p_run (s : pst) (os : list pop) : res pst :=
  match os with
  | [] => Ok s
  | o :: os => s ← p_step s o; p_run s os
  end.
(** solver.cpp 412; [wait] 421 returns once the counter is zero. *)
Definition p_init (isles : list nat) (m : mem) : pst := PSt m ∅ ∅ [] isles (length isles).
(** Something is left to do for this operation. *)
Definition enabled (s : pst) (o : pop) : bool :=
  match o with
  | PStart => bool_decide (p_todo s ≠ [])
  | PRun j => bool_decide (j < length (p_jobs s))
  end.
End Model.
Arguments code : clear implicits.
Arguments pst : clear implicits.

(** Specification vocabulary for the job queue and the worker. *)
From Verif Require Import Outcome JobModel.

(** Jobs that entered and left, in the order of the log. *)
Definition pushes (l : list qev) : list nat := omap (λ e, match e with EPush _ j => Some j | _ => None end) l.
Definition pops (l : list qev) : list nat := omap (λ e, match e with EPop _ j => Some j | _ => None end) l.
(** Whether an event of thread [t] is the outcome of an operation. *)
Definition answers (e : qev) (o : qop) : Prop :=
  match e, o with
  | EPush _ j, QPush j' => j = j'
  | EPop _ _, (QPop | QTry) => True
  | EMiss _, QTry => True
  | ESize _ _, QSize => True
  | _, _ => False
  end.
Definition ev_thread (e : qev) : nat := match e with EPush t _ | EPop t _ | EMiss t | ESize t _ => t end.
Definition by_thread (t : nat) (l : list qev) : list qev := filter (λ e, ev_thread e = t) l.
(** Operations of a thread not yet answered. *)
Definition pending (p : qpc) : list qop :=
  match p with QNext r | QNotify r => r | QSleep _ r => QPop :: r end.
(** A thread that neither finished nor is blocked. *)
Definition q_can (s : qst) (t : nat) : Prop :=
  match q_thr s !! t with Some (QNext (_ :: _)) | Some (QNotify _) | Some (QSleep true _) => True | _ => False end.
(** A schedule that only names threads that can act. *)
Inductive q_acts : qst → list qlabel → qst → Prop :=
| q_acts_nil s : q_acts s [] s
| q_acts_cons s t c l s' : q_can s t → q_acts (q_step s (Go t c)) l s' → q_acts s (Go t c :: l) s'.
Definition q_size (progs : list (list qop)) : nat := sum_list_with length progs.

(** Worker. *)
Definition ran (l : list wev) : list nat := omap (λ e, match e with Ran j => Some j | _ => None end) l.
Definition pushed (l : list wev) : list nat := omap (λ e, match e with Pushed j => Some j | _ => None end) l.
(** Jobs in the worker's hands and still in its queue (without no-ops). *)
Definition in_hand (s : wkst) : list nat := match k_thr s with RRun (Some j) => [j] | _ => [] end.
Definition in_queue (s : wkst) : list nat := omap id (k_queue s).
Definition k_can (s : wkst) (i : nat) : Prop :=
  match i with
  | 0 => match k_thr s with RSleep false | RDone => False | _ => True end
  | S i => match k_cl s !! i with Some (CNext []) | None => False | _ => True end
  end.
Inductive k_acts : wkst → list nat → wkst → Prop :=
| k_acts_nil s : k_acts s [] s
| k_acts_cons s i l s' : k_can s i → k_acts (k_step s i) l s' → k_acts s (i :: l) s'.
Definition stuck (s : wkst) : Prop := ∀ i, ¬ k_can s i.
(** Operations a client has yet to begin. *)
Definition rest_of (p : cpc) : list wop := match p with CNext r | CNotify _ r | CInc r | CPushNoop r => r end.

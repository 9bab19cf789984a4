(** C44: the extrapolation worker. *)
From Verif Require Import Outcome ExtrModel ExtrSpec ExtrProofs.

(** Messages are handled in the order in which they entered the queue: those
    handled are a prefix of those sent, none is lost or duplicated. *)
Theorem C44_messages_in_order progs ls s :
  x_run (x_init progs) ls = Ok s →
  handled (x_log s) `prefix_of` sent (x_log s)
  ∧ sent (x_log s) = handled (x_log s) ++ x_flight s ++ x_queue s.
Proof.
  intros H. pose proof (i_sent s (inv_run _ _ _ (inv_init progs) H)) as E.
  split; [|done]. rewrite E. by eexists.
Qed.

(** Requests are started in the order received; at most three are pending; one
    is dropped only when three were pending, it was the oldest, and another
    arrives: it is never one of the three received last. *)
Theorem C44_requests progs ls s :
  x_run (x_init progs) ls = Ok s →
  requests (handled (x_log s)) = left_list (x_log s) ++ pending (x_log s)
  ∧ length (pending (x_log s)) ≤ 3
  ∧ (∀ l1 r l2, x_log s = l1 ++ EBegin r :: l2 → ∃ rest, pending l1 = r :: rest)
  ∧ (∀ l1 r l2, x_log s = l1 ++ EDrop r :: l2 → ∃ a b, pending l1 = [r; a; b]).
Proof.
  intros H. pose proof (inv_run _ _ _ (inv_init progs) H) as I.
  rewrite (inv_pending s I). split; [exact (i_pend s I)|]. split; [exact (i_len s I)|].
  split; intros l1 r l2 E; exact (i_log s I _ _ _ E).
Qed.

(** Every extrapolation that is not in progress ended, in the order started,
    with one result if all entities of its snapshot were known from the messages
    handled before it started, and with none otherwise. *)
Theorem C44_results progs ls s :
  x_run (x_init progs) ls = Ok s →
  (begun (x_log s) = (ends (x_log s)).*1
   ∨ ∃ r ok, x_pc s = XRun r ok ∧ begun (x_log s) = (ends (x_log s)).*1 ++ [r])
  ∧ (∀ l1 r l2, x_log s = l1 ++ EResult r :: l2 →
       ∃ l0 l, l1 = l0 ++ EBegin r :: l ∧ (∀ e, e ∈ l → ∃ m, e = ESent m)
         ∧ ∀ x, x ∈ rq_ents r → x ∈ known_after (handled l0))
  ∧ (∀ l1 r l2, x_log s = l1 ++ EAbort r :: l2 →
       ∃ l0 l, l1 = l0 ++ EBegin r :: l ∧ (∀ e, e ∈ l → ∃ m, e = ESent m)
         ∧ ∃ x, x ∈ rq_ents r ∧ x ∉ known_after (handled l0)).
Proof.
  intros H. pose proof (inv_run _ _ _ (inv_init progs) H) as I. split; [|split].
  - pose proof (i_ends s I) as E. destruct (x_pc s) as [| | | |k| | | |r ok| |] eqn:Ep;
      try (left; by rewrite app_nil_r in E). right. exists r, ok. by rewrite E.
  - intros l1 r l2 E. destruct (i_log s I _ _ _ E) as (l0 & l & -> & Hl & Hk).
    exists l0, l. split; [done|]. split; [by apply Forall_forall|].
    symmetry in Hk. apply bool_decide_eq_true in Hk. by apply Forall_forall.
  - intros l1 r l2 E. destruct (i_log s I _ _ _ E) as (l0 & l & -> & Hl & Hk).
    exists l0, l. split; [done|]. split; [by apply Forall_forall|].
    symmetry in Hk. apply bool_decide_eq_false in Hk.
    apply not_Forall_Exists in Hk; [|apply _]. by apply Exists_exists in Hk.
Qed.

(** Threads that are not inside a call. *)
Definition outside_push (s : xst) : Prop := Forall (λ p, in_push p = false) (x_cl s).
Lemma outside_unlocked s : outside_push s → xlocked s = false.
Proof.
  unfold xlocked, outside_push. induction 1 as [|p l E _ IH]; [done|]. cbn. by rewrite E.
Qed.

(** A worker that is past the wait, or woken, handles everything that was sent
    before it blocks again. *)
Theorem C44_awake_handles_all progs ls s :
  x_run (x_init progs) ls = Ok s → x_running s = true → x_freed s = false → outside_push s →
  match x_pc s with XPredRun | XBlock | XSleep false | XDone => False | _ => True end →
  ∃ n s', x_run s (replicate n LWorker) = Ok s' ∧ x_pc s' = XSleep false
    ∧ handled (x_log s') = sent (x_log s).
Proof.
  intros H Hr Hf Ho Hp. pose proof (inv_run _ _ _ (inv_init progs) H) as I.
  destruct (solo_ends s) as (n & s' & E & Hb & Hs & I' & Er & Ec & Es); [|done|].
  { split; [done|]. split; [by apply outside_unlocked|].
    split; [intros _; by destruct (x_pc s) as [| | | |[]| | | | | |]|].
    split; [by rewrite Hr|]. intros _ Hd. by rewrite Hd in Hp. }
  exists n, s'. rewrite <- solo_run. split; [done|].
  destruct Hs as (_ & _ & Hh & _ & Hd). rewrite Er in Hd, Hh. specialize (Hd Hr). specialize (Hh Hr).
  destruct (x_pc s') as [| | | |[]| | | | | |] eqn:Ep; try done. split; [done|].
  rewrite <- Es, (i_sent s' I').
  assert (x_flight s' = []) as ->.
  { destruct (x_flight s') eqn:F; [done|]. pose proof (i_flight s' I') as G.
    rewrite F, Ep in G. by specialize (G ltac:(done)). }
  assert (x_queue s' = []) as ->.
  { destruct (x_queue s') eqn:F; [done|]. pose proof (i_has s' I') as G.
    rewrite F, Ep, Hh in G. destruct G as [?|[(i & p & G)|?]]; [done|done| |done].
    rewrite Ec in G. unfold outside_push in Ho. rewrite Forall_forall in Ho.
    specialize (Ho _ (elem_of_list_lookup_2 _ _ _ G)). done. }
  by rewrite !app_nil_r.
Qed.

(** Whenever the worker is blocked and the flag is clear, everything sent was
    handled: only a notification sent while the worker was about to block is
    lost. *)
Theorem C44_blocked_all_handled progs ls s :
  x_run (x_init progs) ls = Ok s → outside_push s → x_pc s = XSleep false → x_has s = false →
  handled (x_log s) = sent (x_log s).
Proof.
  intros H Ho Ep Hh. pose proof (inv_run _ _ _ (inv_init progs) H) as I.
  rewrite (i_sent s I).
  assert (x_flight s = []) as ->.
  { destruct (x_flight s) eqn:F; [done|]. pose proof (i_flight s I) as G.
    rewrite F, Ep in G. by specialize (G ltac:(done)). }
  assert (x_queue s = []) as ->.
  { destruct (x_queue s) eqn:F; [done|]. pose proof (i_has s I) as G.
    rewrite F, Ep, Hh in G. destruct G as [?|[(i & p & G)|?]]; [done|done| |done].
    unfold outside_push in Ho. rewrite Forall_forall in Ho.
    specialize (Ho _ (elem_of_list_lookup_2 _ _ _ G)). done. }
  by rewrite !app_nil_r.
Qed.

(** After [stop] the worker finishes, unless it was about to block. *)
Theorem C44_stop progs ls s :
  x_run (x_init progs) ls = Ok s → x_running s = false → x_freed s = false → outside_push s →
  match x_pc s with XBlock | XSleep false => False | _ => True end →
  ∃ n s', x_run s (replicate n LWorker) = Ok s' ∧ x_pc s' = XDone.
Proof.
  intros H Hr Hf Ho Hp. pose proof (inv_run _ _ _ (inv_init progs) H) as I.
  destruct (solo_ends s) as (n & s' & E & Hb & Hs & I' & Er & Ec & Es); [|done|].
  { split; [done|]. split; [by apply outside_unlocked|].
    split; [by rewrite Hr|]. split; [done|]. by rewrite Hr. }
  exists n, s'. rewrite <- solo_run. split; [done|].
  destruct Hs as (_ & _ & _ & Hd & _). rewrite Er in Hd. specialize (Hd Hr).
  by destruct (x_pc s') as [| | | |[]| | | | | |].
Qed.

(** ** A run with five requests, one of an unknown entity, and what happens. *)
Definition rq (i : nat) : xreq := XReqOf i [i].
Definition five : list (list sop) :=
  [[SSend (XCreate [1; 2; 3; 4]); SSend (XReq (rq 1)); SSend (XReq (rq 2)); SSend (XReq (rq 3));
    SSend (XReq (rq 9)); SSend (XSet 7)]].
Definition all_sent : list xlabel := replicate 15 (LSender 0).
Definition five_run := x_run (x_init five) (all_sent ++ replicate 12 LWorker ++ replicate 3 (LSender 0) ++ replicate 20 LWorker).
Example five_log :
  match five_run with Ok s => (begun (x_log s), dropped (x_log s), ends (x_log s), pending (x_log s)) | _ => ([], [], [], []) end
  = ([rq 2; rq 3], [rq 1], [(rq 2, true); (rq 3, true)], [rq 9]).
Proof. vm_compute. reflexivity. Qed.

(** * Boundaries. *)
(** Two requests sent before the worker looks: the second stays pending, and
    nothing, not even spurious wake-ups, starts it until another message comes. *)
Definition two : list (list sop) := [[SSend (XReq (XReqOf 1 [])); SSend (XReq (XReqOf 2 []))]].
Definition two_labels : list xlabel := replicate 6 (LSender 0) ++ replicate 12 LWorker.
Theorem C44_pending_waits_refuted :
  ∃ s, x_run (x_init two) two_labels = Ok s ∧ pending (x_log s) = [XReqOf 2 []]
    ∧ ∀ ls s', x_run s ls = Ok s' → begun (x_log s') = [XReqOf 1 []] ∧ pending (x_log s') = [XReqOf 2 []].
Proof.
  eexists. split; [vm_compute; reflexivity|]. split; [reflexivity|].
  intros ls s' H. apply idle_run in H as (_ & _ & -> & _).
  - by split.
  - split; [|by repeat split]. apply Forall_cons_2; [done|apply Forall_nil_2].
Qed.

(** A message sent between the evaluation of the predicate and blocking: the
    worker sleeps with the message in the queue; no thread can act. *)
Definition one : list (list sop) := [[SSend (XReq (XReqOf 1 []))]].
Definition one_labels : list xlabel := [LWorker; LWorker; LWorker] ++ replicate 3 (LSender 0) ++ [LWorker].
Theorem C44_lost_wakeup_refuted :
  ∃ s, x_run (x_init one) one_labels = Ok s ∧ x_pc s = XSleep false
    ∧ sent (x_log s) = [XReq (XReqOf 1 [])] ∧ handled (x_log s) = []
    ∧ x_step s LWorker = Ok s ∧ ∀ i, x_step s (LSender i) = Ok s.
Proof.
  eexists. split; [vm_compute; reflexivity|]. split; [reflexivity|]. split; [reflexivity|].
  split; [reflexivity|]. split; [reflexivity|]. intros [|i]; reflexivity.
Qed.

(** The same with [stop]: the thread never ends. *)
Theorem C44_stop_lost_refuted :
  ∃ s, x_run (x_init [[SStop]]) ([LWorker; LWorker; LWorker] ++ replicate 2 (LSender 0) ++ [LWorker]) = Ok s
    ∧ x_running s = false ∧ x_pc s = XSleep false
    ∧ x_step s LWorker = Ok s ∧ ∀ i, x_step s (LSender i) = Ok s.
Proof.
  eexists. split; [vm_compute; reflexivity|]. split; [reflexivity|]. split; [reflexivity|].
  split; [reflexivity|]. intros [|i]; reflexivity.
Qed.

(** The destructor does not wait for the thread, which goes on using the object. *)
Theorem C44_destroyed_while_running_refuted :
  x_run (x_init [[SDelete]]) ([LWorker] ++ replicate 3 (LSender 0) ++ [LWorker]) = UB.
Proof. reflexivity. Qed.

Print Assumptions C44_messages_in_order.
Print Assumptions C44_requests.
Print Assumptions C44_results.
Print Assumptions C44_awake_handles_all.
Print Assumptions C44_blocked_all_handled.
Print Assumptions C44_stop.
Print Assumptions C44_pending_waits_refuted.
Print Assumptions C44_lost_wakeup_refuted.
Print Assumptions C44_stop_lost_refuted.
Print Assumptions C44_destroyed_while_running_refuted.

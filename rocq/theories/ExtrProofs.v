(** Proofs about the extrapolation worker. *)
From Verif Require Import Outcome ExtrModel ExtrSpec.

Lemma sent_app a b : sent (a ++ b) = sent a ++ sent b. Proof. apply omap_app. Qed.
Lemma handled_app a b : handled (a ++ b) = handled a ++ handled b. Proof. apply omap_app. Qed.
Lemma requests_app a b : requests (a ++ b) = requests a ++ requests b. Proof. apply omap_app. Qed.
Lemma left_app a b : left_list (a ++ b) = left_list a ++ left_list b. Proof. apply omap_app. Qed.
Lemma begun_app a b : begun (a ++ b) = begun a ++ begun b. Proof. apply omap_app. Qed.
Lemma ends_app a b : ends (a ++ b) = ends a ++ ends b. Proof. apply omap_app. Qed.
Global Arguments sent : simpl never. Global Arguments handled : simpl never.
Global Arguments requests : simpl never. Global Arguments left_list : simpl never.
Global Arguments begun : simpl never. Global Arguments ends : simpl never.
Global Arguments known_after : simpl never. Global Arguments pending : simpl never.
Global Arguments xlocked : simpl never.
Lemma sent_one e : sent [e] = match e with ESent m => [m] | _ => [] end. Proof. by destruct e. Qed.
Lemma handled_one e : handled [e] = match e with EHandled m => [m] | _ => [] end. Proof. by destruct e. Qed.
Lemma left_one e : left_list [e] = match e with EDrop r | EBegin r => [r] | _ => [] end. Proof. by destruct e. Qed.
Lemma begun_one e : begun [e] = match e with EBegin r => [r] | _ => [] end. Proof. by destruct e. Qed.
Lemma ends_one e :
  ends [e] = match e with EResult r => [(r, true)] | EAbort r => [(r, false)] | _ => [] end.
Proof. by destruct e. Qed.
Lemma requests_one m : requests [m] = match m with XReq r => [r] | _ => [] end. Proof. by destruct m. Qed.
Global Hint Rewrite sent_app handled_app requests_app left_app begun_app ends_app
  sent_one handled_one requests_one left_one begun_one ends_one (@app_nil_r xmsg) (@app_nil_r xreq)
  (@app_nil_r (xreq * bool)) : log.
Ltac logs := autorewrite with log; cbn; rewrite ?app_nil_r.
Lemma known_after_snoc ms m : known_after (ms ++ [m]) = known_step (known_after ms) m.
Proof. unfold known_after. by rewrite foldl_app. Qed.

(** Nothing but arrivals in the queue. *)
Definition only_sent (l : list xev) : Prop := Forall (λ e, ∃ m, e = ESent m) l.
Lemma only_sent_empty l : only_sent l → handled l = [] ∧ left_list l = [] ∧ begun l = [] ∧ ends l = [].
Proof. induction 1 as [|e l [m ->] _ (?&?&?&?)]; done. Qed.

(** What must hold when an event happens after the log [l]. *)
Definition ended (l : list xev) (r : xreq) (ok : bool) : Prop :=
  ∃ l0 l1, l = l0 ++ EBegin r :: l1 ∧ only_sent l1 ∧ ok = all_known (known_after (handled l0)) r.
Definition ev_ok (l : list xev) (e : xev) : Prop :=
  match e with
  | EDrop r => ∃ a b, pending l = [r; a; b]
  | EBegin r => ∃ rest, pending l = r :: rest
  | EResult r => ended l r true
  | EAbort r => ended l r false
  | _ => True
  end.
Definition log_ok (l : list xev) : Prop := ∀ l1 e l2, l = l1 ++ e :: l2 → ev_ok l1 e.
Lemma log_ok_snoc l e : log_ok l → ev_ok l e → log_ok (l ++ [e]).
Proof.
  intros H He l1 e' l2 E. destruct (decide (l2 = [])) as [->|Hne].
  - apply app_inj_tail in E as [<- <-]. done.
  - destruct (exists_last Hne) as (l2' & x & ->).
    rewrite app_comm_cons, app_assoc in E. apply app_inj_tail in E as [-> <-]. by eapply H.
Qed.

Record inv (s : xst) : Prop := {
  i_sent : sent (x_log s) = handled (x_log s) ++ x_flight s ++ x_queue s;
  i_pend : requests (handled (x_log s)) = left_list (x_log s) ++ x_reqs s;
  i_len : length (x_reqs s) ≤ max_requests;
  i_known : x_known s = known_after (handled (x_log s));
  i_has : x_queue s ≠ [] → x_has s = true ∨ (∃ i p, x_cl s !! i = Some (SPushed p)) ∨ x_pc s = XUpdate;
  i_flight : x_flight s ≠ [] → x_pc s = XDeliver;
  i_log : log_ok (x_log s);
  i_run : match x_pc s with XRun r ok => ended (x_log s) r ok | _ => True end;
  i_ends : (ends (x_log s)).*1 ++ match x_pc s with XRun r _ => [r] | _ => [] end = begun (x_log s) }.

Lemma inv_pending s : inv s → pending (x_log s) = x_reqs s.
Proof. intros I. unfold pending. rewrite (i_pend s I). apply drop_app. Qed.

Lemma inv_init progs : inv (x_init progs).
Proof.
  split; cbn; try done.
  - unfold max_requests; lia.
  - intros l1 e l2 E. by destruct l1.
Qed.

Ltac has_ok Ih := let E := fresh in intros E; destruct (Ih E) as [?|[?|?]]; [by left|by right; left|done].
Lemma inv_worker s s' : inv s → x_worker s = Ok s' → inv s'.
Proof.
  intros I H. pose proof (inv_pending s I) as Hp.
  destruct I as [Is Ip Il Ik Ih If Io Ir Ie].
  destruct s as [run has q fl reqs known pc cl freed log]. unfold x_worker in H. cbn in *.
  destruct pc as [| | | |k| | | |r ok| |].
  - destruct freed; [done|]. injection H as <-. split; cbn; try done.
    + destruct run; naive_solver.
    + destruct run; naive_solver.
    + by destruct run.
    + by destruct run.
  - destruct freed; [done|]. injection H as <-. split; cbn; try done.
    + destruct has; [by right; right|]. intros E. destruct (Ih E) as [?|[?|?]]; [done|by right; left|done].
    + intros E. by specialize (If E).
    + by destruct has.
    + by destruct has.
  - destruct freed; [done|]. injection H as <-. split; cbn; try done.
    + destruct run; naive_solver.
    + destruct run; naive_solver.
    + by destruct run.
    + by destruct run.
  - destruct freed; [done|]. injection H as <-. split; cbn; try done; naive_solver.
  - destruct k; [|by injection H as <-]. destruct freed; [done|]. injection H as <-.
    split; cbn; try done; naive_solver.
  - destruct freed; [done|].
    assert (fl = []) as -> by (destruct fl as [|? ?]; [done|]; discriminate (If ltac:(done))).
    destruct (xlocked _); injection H as <-; split; cbn; try done.
    by rewrite app_nil_r.
  - destruct freed; [done|]. destruct fl as [|m ms]; injection H as <-.
    { split; cbn; try done. has_ok Ih. }
    assert (Hs : handled (log ++ [EHandled m]) = handled log ++ [m]) by by logs.
    assert (E1 : begun (log ++ [EHandled m]) = begun log) by by logs.
    assert (E2 : ends (log ++ [EHandled m]) = ends log) by by logs.
    assert (E3 : left_list (log ++ [EHandled m]) = left_list log) by by logs.
    assert (E4 : sent (log ++ [EHandled m]) = sent log) by by logs.
    destruct m as [r|es|es|n]; cbn [x_handle].
    2-4: (split; cbn; rewrite ?Hs, ?E1, ?E2, ?E3, ?E4; try done;
          [by rewrite Is, <- app_assoc
          |by logs
          |rewrite known_after_snoc; cbn; by rewrite ?Ik
          |by apply log_ok_snoc]).
    unfold on_request. cbn [x_reqs].
    destruct reqs as [|q0 reqs]; [|destruct (decide (length (q0 :: reqs) = max_requests)) as [E|E]].
    + split; cbn; rewrite ?Hs, ?E1, ?E2, ?E3, ?E4; try done.
      * by rewrite Is, <- app_assoc.
      * logs. by rewrite Ip, app_nil_r.
      * unfold max_requests. lia.
      * by rewrite known_after_snoc, <- Ik.
      * by apply log_ok_snoc.
    + assert (Hs' : handled ((log ++ [EDrop q0]) ++ [EHandled (XReq r)]) = handled log ++ [XReq r]) by by logs.
      split; cbn; rewrite ?Hs'; try done.
      * logs. by rewrite Is, <- app_assoc.
      * logs. by rewrite Ip, <- !app_assoc.
      * rewrite app_length. cbn in *. lia.
      * by rewrite known_after_snoc, <- Ik.
      * apply log_ok_snoc; [|done]. apply log_ok_snoc; [done|].
        unfold max_requests in E. destruct reqs as [|a [|b [|? ?]]]; try done.
        exists a, b. done.
      * logs. by rewrite !app_nil_r in Ie.
    + split; cbn; rewrite ?Hs, ?E1, ?E2, ?E3, ?E4; try done.
      * by rewrite Is, <- app_assoc.
      * logs. rewrite Ip. by rewrite <- app_assoc.
      * rewrite app_length. cbn in *. lia.
      * by rewrite known_after_snoc, <- Ik.
      * by apply log_ok_snoc.
  - destruct freed; [done|].
    assert (fl = []) as -> by (destruct fl as [|? ?]; [done|]; discriminate (If ltac:(done))).
    destruct reqs as [|r l]; injection H as <-.
    { split; cbn; try done. has_ok Ih. }
    split; cbn.
    + by logs.
    + logs. by rewrite Ip, <- app_assoc.
    + cbn in Il. lia.
    + by logs.
    + has_ok Ih.
    + done.
    + apply log_ok_snoc; [done|]. cbn. eauto.
    + exists log, []. split; [done|]. split; [constructor|]. by rewrite <- Ik.
    + logs. by rewrite app_nil_r in Ie; rewrite Ie.
  - destruct freed; [done|].
    assert (fl = []) as -> by (destruct fl as [|? ?]; [done|]; discriminate (If ltac:(done))).
    injection H as <-. split; cbn; try done.
    + destruct ok; by logs.
    + destruct ok; by logs.
    + destruct ok; by logs.
    + has_ok Ih.
    + apply log_ok_snoc; [done|]. by destruct ok.
    + destruct ok; logs; rewrite fmap_app; exact Ie.
  - destruct freed; [done|].
    assert (fl = []) as -> by (destruct fl as [|? ?]; [done|]; discriminate (If ltac:(done))).
    destruct reqs as [|r l]; injection H as <-; split; cbn; try done.
    + has_ok Ih.
    + destruct has; [by right; right|]. intros E. destruct (Ih E) as [?|[?|?]]; [done|by right; left|done].
    + by destruct has.
    + by destruct has.
  - injection H as <-. by split.
Qed.

Lemma inv_notify s : inv s → inv (x_notify s).
Proof.
  intros [Is Ip Il Ik Ih If Io Ir Ie].
  destruct s as [run has q fl reqs known pc cl freed log]. unfold x_notify. cbn in *.
  destruct pc; try (by split). split; cbn; try done; naive_solver.
Qed.

Lemma ended_sent l r ok m : ended l r ok → ended (l ++ [ESent m]) r ok.
Proof.
  intros (l0 & l1 & -> & H & E). exists l0, (l1 ++ [ESent m]). rewrite <- app_assoc. cbn.
  split; [done|]. split; [|done]. apply Forall_app. split; [done|]. repeat constructor. by exists m.
Qed.

(** Threads other than the worker leave all this alone but for new messages. *)
Lemma inv_xcl s i p p' : inv s → x_cl s !! i = Some p → (∀ r, p ≠ SPushed r) → inv (xcl s i p').
Proof.
  intros [Is Ip Il Ik Ih If Io Ir Ie] Hi Hp.
  destruct s as [run has q fl reqs known pc cl freed log]. cbn in *. split; cbn; try done.
  intros E. destruct (Ih E) as [?|[(j & r & Hj)|?]]; [by left| |by right; right].
  right; left. exists j, r. rewrite list_lookup_insert_ne; [done|]. intros ->.
  rewrite Hj in Hi. injection Hi as <-. by eapply Hp.
Qed.

Lemma inv_sender s i s' : inv s → x_sender s i = Ok s' → inv s'.
Proof.
  intros I H. unfold x_sender in H. destruct (x_cl s !! i) as [p|] eqn:Ei; [|by injection H as <-].
  destruct p as [[|[m| |] p]|p|p|del p|p]; try (destruct (x_freed s); [done|]).
  - by injection H as <-.
  - destruct (xlocked s); [by injection H as <-|]. injection H as <-.
    destruct I as [Is Ip Il Ik Ih If Io Ir Ie].
    destruct s as [run has q fl reqs known pc cl freed log]. cbn in *.
    assert (i < length cl) by by eapply lookup_lt_Some.
    assert (E1 : handled (log ++ [ESent m]) = handled log) by by logs.
    assert (E2 : begun (log ++ [ESent m]) = begun log) by by logs.
    assert (E3 : left_list (log ++ [ESent m]) = left_list log) by by logs.
    assert (E4 : ends (log ++ [ESent m]) = ends log) by by logs.
    split; cbn; rewrite ?E1, ?E2, ?E3, ?E4; try done.
    + logs. by rewrite Is, <- !app_assoc.
    + intros _. right; left. exists i, p. by rewrite list_lookup_insert.
    + by apply log_ok_snoc.
    + destruct pc; try done. by apply ended_sent.
  - injection H as <-.
    pose proof (inv_xcl s i _ (SStopped false p) I Ei ltac:(done)) as [Is Ip Il Ik Ih If Io Ir Ie].
    by split.
  - injection H as <-.
    pose proof (inv_xcl s i _ (SStopped true p) I Ei ltac:(done)) as [Is Ip Il Ik Ih If Io Ir Ie].
    by split.
  - injection H as <-. destruct I as [Is Ip Il Ik Ih If Io Ir Ie].
    destruct s as [run has q fl reqs known pc cl freed log]. cbn in *. split; cbn; try done. by left.
  - injection H as <-. apply inv_notify. by eapply inv_xcl.
  - injection H as <-. apply inv_notify. by eapply inv_xcl.
  - injection H as <-.
    pose proof (inv_xcl s i _ (SNext p) I Ei ltac:(done)) as [Is Ip Il Ik Ih If Io Ir Ie].
    by split.
Qed.

Lemma inv_run s ls s' : inv s → x_run s ls = Ok s' → inv s'.
Proof.
  revert s. induction ls as [|l ls IH]; intros s I H; cbn in H; [by injection H as <-|].
  destruct (x_step s l) as [s1| | |] eqn:E; try done. apply (IH s1); [|done].
  destruct l; cbn in E; [by eapply inv_worker|by eapply inv_sender|].
  injection E as <-. by apply inv_notify.
Qed.

(** ** The worker on its own. *)
Definition blocked (p : xpc) : bool := match p with XSleep false | XDone => true | _ => false end.
Definition weight (s : xst) : nat :=
  (if x_has s then 20 else 0) + length (x_queue s) + length (x_flight s)
  + match x_pc s with
    | XSleep false | XDone => 0
    | XBlock => 1
    | XPredRun => if x_running s then 2 else 7
    | XPred => if x_running s then 3 else 8
    | XSleep true => if x_running s then 4 else 9
    | XTest => if x_running s then 4 else 1
    | XCond => if x_running s then 5 else 2
    | XRun _ _ => if x_running s then 6 else 3
    | XTake => if x_running s then 7 else 4
    | XDeliver => if x_running s then 8 else 5
    | XUpdate => if x_running s then 9 else 6
    end.
Fixpoint solo (n : nat) (s : xst) : res xst :=
  match n with O => Ok s | S n => s ← x_worker s; solo n s end.

Lemma solo_run n s : solo n s = x_run s (replicate n LWorker).
Proof. revert s. induction n as [|n IH]; intros s; cbn; [done|]. destruct (x_worker s); cbn; auto. Qed.

Definition solo_ok (s : xst) : Prop :=
  x_freed s = false ∧ xlocked s = false
  ∧ (x_running s = true → match x_pc s with XPredRun | XBlock | XSleep false => x_has s = false | _ => True end)
  ∧ (x_running s = false → match x_pc s with XBlock | XSleep false => False | _ => True end)
  ∧ (x_running s = true → x_pc s ≠ XDone).

Lemma x_handle_frame s m :
  let s' := x_handle s m in
  x_freed s' = x_freed s ∧ x_cl s' = x_cl s ∧ x_pc s' = x_pc s ∧ x_has s' = x_has s
  ∧ x_running s' = x_running s ∧ x_queue s' = x_queue s ∧ x_flight s' = x_flight s.
Proof.
  destruct m as [r|es|es|n]; cbn; try (by repeat split).
  unfold on_request. destruct (x_reqs s) as [|q l]; [by repeat split|].
  destruct (decide _); by repeat split.
Qed.

Lemma solo_step s :
  solo_ok s → inv s → blocked (x_pc s) = false →
  ∃ s', x_worker s = Ok s' ∧ weight s' < weight s ∧ solo_ok s' ∧ x_running s' = x_running s
    ∧ x_cl s' = x_cl s ∧ sent (x_log s') = sent (x_log s).
Proof.
  intros (Hf & Hl & Hh & Hr & Hd) I Hb.
  pose proof (i_flight s I) as If. clear I.
  destruct s as [run has q fl reqs known pc cl freed log].
  unfold x_worker, solo_ok, weight, xlocked in *. cbn in Hf, Hl, Hh, Hr, Hd, Hb, If |- *. subst freed.
  destruct pc as [| | | |[]| | | |r ok| |]; try done.
  - eexists. split; [done|]. cbn. destruct run; cbn; repeat split; try done; lia.
  - eexists. split; [done|]. cbn. destruct has, run; cbn; repeat split; try done; lia.
  - eexists. split; [done|]. cbn. destruct run; cbn; repeat split; try done; lia.
  - eexists. split; [done|]. cbn.
    destruct run; [|by destruct (Hr eq_refl)]. rewrite Hh by done. repeat split; try done; lia.
  - eexists. split; [done|]. cbn. destruct run; repeat split; try done; lia.
  - rewrite Hl. eexists. split; [done|]. cbn.
    assert (fl = []) as -> by (destruct fl as [|? ?]; [done|]; discriminate (If ltac:(done))). cbn.
    destruct run; repeat split; try done; lia.
  - destruct fl as [|m ms]; eexists; (split; [done|]).
    { cbn. destruct run; repeat split; try done; lia. }
    match goal with |- context [x_handle ?s m] => pose proof (x_handle_frame s m) as F;
      assert (sent (x_log (x_handle s m)) = sent log) as Es end.
    { destruct m as [r|es|es|n]; cbn; logs; try done.
      unfold on_request. cbn. destruct reqs as [|q0 l]; logs; [done|].
      destruct (decide _); cbn; by logs. }
    cbn in F. destruct F as (-> & -> & -> & -> & -> & -> & ->). rewrite Es. cbn.
    destruct run; repeat split; try done; lia.
  - destruct reqs as [|r l]; eexists; (split; [done|]); cbn.
    { destruct run; repeat split; try done; lia. }
    logs. destruct run; repeat split; try done; lia.
  - eexists. split; [done|]. cbn.
    destruct ok; logs; destruct run; repeat split; try done; lia.
  - destruct reqs as [|r l]; eexists; (split; [done|]); cbn.
    { destruct run; repeat split; try done; lia. }
    destruct has, run; repeat split; try done; lia.
Qed.

Lemma solo_ends s :
  solo_ok s → inv s →
  ∃ n s', solo n s = Ok s' ∧ blocked (x_pc s') = true ∧ solo_ok s' ∧ inv s'
    ∧ x_running s' = x_running s ∧ x_cl s' = x_cl s ∧ sent (x_log s') = sent (x_log s).
Proof.
  intros Hs I. remember (weight s) as w eqn:Ew. revert s Ew Hs I.
  induction w as [w IH] using lt_wf_ind. intros s -> Hs I.
  destruct (blocked (x_pc s)) eqn:Eb; [by exists 0, s|].
  destruct (solo_step s Hs I Eb) as (s1 & E & Hw & Hs1 & Hr & Hc & Hse).
  destruct (IH _ Hw s1 eq_refl Hs1 (inv_worker _ _ I E)) as (n & s' & E' & H1 & H2 & H3 & H4 & H5 & H6).
  exists (S n), s'. cbn. rewrite E. cbn. split; [done|]. split; [done|]. split; [done|].
  split; [done|]. split; [congruence|]. split; [congruence|]. congruence.
Qed.

(** ** Asleep with nothing left to wake it. *)
Definition idle (s : xst) : Prop :=
  Forall (λ p, p = SNext []) (x_cl s) ∧ x_has s = false ∧ x_running s = true
  ∧ match x_pc s with XPred | XPredRun | XBlock | XSleep _ => True | _ => False end.
Lemma idle_step s l s' :
  idle s → x_step s l = Ok s' →
  idle s' ∧ x_reqs s' = x_reqs s ∧ x_log s' = x_log s ∧ x_queue s' = x_queue s.
Proof.
  intros (Hc & Hh & Hr & Hp) H. destruct l as [|i|]; cbn in H.
  - unfold x_worker in H. destruct s as [run has q fl reqs known pc cl freed log]. cbn in *. subst.
    destruct pc as [| | | |[]| | | |r ok| |]; try done; try (destruct freed; [done|]);
      injection H as <-; done.
  - unfold x_sender in H. destruct (x_cl s !! i) as [p|] eqn:E; [|injection H as <-; done].
    rewrite Forall_forall in Hc. rewrite (Hc p) in H; [|by eapply elem_of_list_lookup_2].
    injection H as <-. split; [|done]. split; [by apply Forall_forall|done].
  - injection H as <-. unfold x_notify, idle.
    destruct s as [run has q fl reqs known pc cl freed log]. cbn in *. by destruct pc.
Qed.
Lemma idle_run s ls s' :
  idle s → x_run s ls = Ok s' →
  idle s' ∧ x_reqs s' = x_reqs s ∧ x_log s' = x_log s ∧ x_queue s' = x_queue s.
Proof.
  revert s. induction ls as [|l ls IH]; intros s I H; cbn in H; [by injection H as <-|].
  destruct (x_step s l) as [s1| | |] eqn:E; try done.
  destruct (idle_step s l s1 I E) as (I1 & E1 & E2 & E3).
  destruct (IH s1 I1 H) as (I2 & F1 & F2 & F3). split; [done|]. split; [congruence|].
  split; congruence.
Qed.

(** Theorems for C27 (action histories), C28 (execution of actions on the server),
    C29 (timed packets) and C46 (replaying histories in extrapolation). *)
From Verif Require Import HistModel HistSpec HistProofs HistMore.
Local Open Scope Z_scope.

(** ** C27 *)
(** Whatever is merged and erased: the history holds exactly the received entries
    that were newer than everything accepted before and not erased since, in
    order of time. *)
Theorem C27_history os :
  Forall hop_ok os →
  ∃ h, hrun h_new os = Ok h ∧ h_entries h = (foldl hspec ([], []) os).2 ∧
    by_time (h_entries h) ∧ by_time (foldl hspec ([], []) os).1 ∧
    h_last h = newest (foldl hspec ([], []) os).1.
Proof.
  intros F. destruct (hrun_ok os [] h_new hinv_new F) as (h & E & H & (A & (d & D) & L)).
  exists h. split_and!; try done; [|apply A].
  destruct A as [A _]. rewrite D in A. by apply SS_app in A as (_ & A & _).
Qed.
(** Receiving the same history again changes nothing. *)
Theorem C27_resend os h l h1 :
  Forall hop_ok os → hrun h_new os = Ok h → by_time l → h_merge h l = Ok h1 → h_merge h1 l = Ok h1.
Proof.
  intros F E B. destruct (hrun_ok os [] h_new hinv_new F) as (h' & E' & _ & I).
  assert (h' = h) as -> by congruence. by eapply (merge_again _ h).
Qed.
(** If windows of a stream of actions are received, each starting no later than the
    first action not received yet, exactly the actions up to the furthest one
    received are accepted, each once, whatever was resent. *)
Theorem C27_no_action_lost A ws :
  strictly_by_time A → Forall (λ x, 0 < e_time x) A → covered A 0 ws →
  ∃ h, hrun h_new (window_op A <$> ws) = Ok h ∧
    (foldl hspec ([], []) (window_op A <$> ws)).1 = take (furthest 0 ws) A.
Proof.
  intros B P C. destruct (C27_history (window_op A <$> ws)) as (h & E & _).
  { by eapply window_op_ok. }
  exists h. split; [done|]. apply (windows_ok A ws 0); try done. lia.
Qed.
(** The server sorts and shifts what it receives; [std::sort] may order equal times
    in any way and the clock offset may be added with rounding. *)
Theorem C27_server_merge os h recv sorted shift :
  Forall hop_ok os → hrun h_new os = Ok h → sorts recv sorted → (∀ a b, a ≤ b → shift a ≤ shift b) →
  ∃ h' new, srv_merge shift sorted (Some h) = Ok (Some h') ∧ h_entries h' = h_entries h ++ new ∧
    by_time (h_entries h') ∧
    new ≡ₚ filter (λ e, h_last h < e_time e) (shift_entries shift recv).
Proof.
  intros F E [P S] M. destruct (hrun_ok os [] h_new hinv_new F) as (h0 & E' & _ & I).
  assert (h0 = h) as -> by congruence. set (acc := (foldl hspec ([], h_entries h_new) os).1) in *.
  assert (PL : shift_entries shift recv ≡ₚ shift_entries shift sorted) by (unfold shift_entries; by rewrite P).
  destruct sorted as [|e l].
  - exists h, []. apply Permutation_nil_l in P as <-. cbn [srv_merge]. split; [done|]. split; [by rewrite app_nil_r|]. split; [|done].
    destruct I as ((A & _) & (d & D) & _). rewrite D in A. by apply SS_app in A as (_ & A & _).
  - cbn [srv_merge]. destruct (merge_ok acc h (shift_entries shift (e :: l))) as [-> I']; try done.
    { by apply shift_sorted. }
    cbn [mbind res_bind]. eexists _, _. split; [done|]. split; [done|]. split.
    + destruct I' as ((A & _) & (d & D) & _). rewrite D in A. by apply SS_app in A as (_ & A & _).
    + rewrite PL. unfold fresh. by rewrite (proj2 (proj2 I)).
Qed.
(** Actions recorded at or before time zero are lost. *)
Theorem C27_nonpositive_time_refuted :
  ∃ l, by_time l ∧ l ≠ [] ∧ h_merge h_new l = Ok h_new.
Proof. exists [Entry (-3) 1; Entry 0 2]. split_and!; [repeat constructor; cbn; lia|done|done]. Qed.
(** Two actions of the same time received in different packets: the second is lost. *)
Theorem C27_equal_times_refuted :
  ∃ a b h, e_time a = e_time b ∧ a ≠ b ∧ h_merge h_new [a] = Ok h ∧
    (∃ h', h_merge h [b] = Ok h' ∧ b ∉ h_entries h').
Proof.
  exists (Entry 5 1), (Entry 5 2), (Hist [Entry 5 1] 5). split_and!; try done.
  eexists. split; [vm_compute; reflexivity|]. apply (bool_decide_unpack _). vm_compute. exact I.
Qed.
(** When the estimate of the client's clock grows between two packets, an action that
    was already accepted is accepted again. *)
Theorem C27_clock_change_refuted :
  ∃ recv d1 d2 h h', srv_merge (Z.add d1) recv (Some h_new) = Ok (Some h) ∧
    srv_merge (Z.add d2) recv (Some h) = Ok (Some h') ∧ length recv = 1%nat ∧ length (h_entries h') = 2%nat.
Proof. exists [Entry 5 1], 10, 11. do 2 eexists. split_and!; vm_compute; reflexivity. Qed.
(** A history for an entity that has none in the server's registry. *)
Theorem C27_missing_history_refuted :
  ∃ recv, by_time recv ∧ srv_merge (Z.add 0) recv None = UB.
Proof. exists [Entry 5 1]. split; [repeat constructor|done]. Qed.
(** The client's copy for extrapolation: the first history is copied together with its
    [last_timestamp], which is zero, so that the next merge appends all of it again. *)
Theorem C27_first_copy_refuted :
  ∃ src h h', h_last src = 0 ∧ strictly_by_time (h_entries src) ∧
    w_add_actions None src = Ok (Some h) ∧ w_add_actions (Some h) src = Ok (Some h') ∧
    h_entries h' = h_entries src ++ h_entries src ∧ h_entries src ≠ [].
Proof.
  exists (Hist [Entry 5 1; Entry 7 2] 0). do 2 eexists. split_and!; try (vm_compute; reflexivity); [|done].
  repeat constructor; cbn; lia.
Qed.
(** Later merges into that copy add every action once. *)
Theorem C27_copy_after_first os h src :
  Forall hop_ok os → hrun h_new os = Ok h → by_time (h_entries src) →
  ∃ h', w_add_actions (Some h) src = Ok (Some h') ∧
    h_entries h' = h_entries h ++ filter (λ e, h_last h < e_time e) (h_entries src).
Proof.
  intros F E B. destruct (hrun_ok os [] h_new hinv_new F) as (h0 & E' & _ & I).
  assert (h0 = h) as -> by congruence. unfold w_add_actions. case_bool_decide as N.
  - exists h. rewrite N. cbn. by rewrite app_nil_r.
  - destruct (merge_ok _ h (h_entries src) I N B) as [-> _]. cbn [mbind res_bind].
    eexists. split; [done|]. cbn [h_entries]. unfold fresh. by rewrite (proj2 (proj2 I)).
Qed.
(** A case: resent windows with an erasure in between. *)
Definition stream : list entry := [Entry 3 0; Entry 5 1; Entry 6 2; Entry 9 3].
Example C27_case :
  covered stream 0 [inl (0, 2); inl (0, 3); inr 5%Z; inl (1, 3); inl (2, 4)]%nat ∧
  hrun h_new (window_op stream <$> [inl (0, 2); inl (0, 3); inr 5%Z; inl (1, 3); inl (2, 4)]%nat) =
    Ok (Hist [Entry 5 1; Entry 6 2; Entry 9 3] 9).
Proof. split; [cbn; lia|vm_compute; reflexivity]. Qed.

(** ** C28 *)
Definition server_of (own : nat → nat) (ents : list nat) : dserver :=
  DServer ((λ e, (e, own e, h_new)) <$> ents) ∅.
Lemma server_inv own ents : dinv own ents [] (λ _, []) (ds_hists (server_of own ents)) (ds_exec (server_of own ents)).
Proof.
  split; cbn.
  - rewrite <- list_fmap_compose. by apply list_fmap_id.
  - apply Forall_forall. intros x (e & -> & _)%elem_of_list_fmap. split; cbn; try done; [apply acc_nil|].
    exists []. split_and!; try done. by intros ? ? ?%elem_of_nil. by intros ? ?%elem_of_nil.
  - by left.
  - by intros ? ? ?%elem_of_nil.
Qed.
(** Everything accepted for an entity is either still waiting or done with; what was
    executed is part of what is done with, in order and each at most once; an action
    done with but not executed has a time not after that of an action executed
    for another entity of the same client. *)
Theorem C28_executed_once own ents evs :
  NoDup ents → Forall (devent_ok ents) evs →
  ∃ s logs, drun (server_of own ents) evs = Ok (s, logs) ∧
    ∀ e c h, (e, c, h) ∈ ds_hists s → c = own e ∧ by_time (accepted e [] evs) ∧
      ∃ past, accepted e [] evs = past ++ h_entries h ∧
        of_entity e (concat logs) `sublist_of` past ∧
        ∀ a, a ∈ past → (e, a) ∈ concat logs ∨
          ∃ e' a', (e', a') ∈ concat logs ∧ own e' = own e ∧ e' ≠ e ∧ e_time a ≤ e_time a'.
Proof.
  intros ND F. destruct (drun_ok own ents evs [] (λ _, []) _ ND (server_inv own ents) F) as (s & logs & E & I).
  exists s, logs. split; [done|]. intros e c h H. destruct I as [_ DF _ _].
  eapply Forall_forall in DF; [|exact H]. destruct DF as [O A L (d & D1 & D2 & D3 & D4 & D5)].
  cbn [fst snd app] in *. split; [done|]. split; [apply A|]. exists d. split_and!; done.
Qed.
(** A client with a single such entity: every accepted action is executed exactly
    once, in order, or still waiting. *)
Theorem C28_single_entity own ents evs s logs e c h :
  NoDup ents → Forall (devent_ok ents) evs → drun (server_of own ents) evs = Ok (s, logs) →
  (e, c, h) ∈ ds_hists s → (∀ e', e' ∈ ents → own e' = own e → e' = e) →
  accepted e [] evs = of_entity e (concat logs) ++ h_entries h.
Proof.
  intros ND F E H S. destruct (drun_ok own ents evs [] (λ _, []) _ ND (server_inv own ents) F) as (s' & logs' & E' & I).
  assert (s' = s ∧ logs' = logs) as [-> ->] by (split; congruence).
  destruct I as [_ DF _ _]. eapply Forall_forall in DF; [|exact H].
  destruct DF as [O A L (d & D1 & D2 & D3 & D4 & D5)]. cbn [fst snd app] in *. by rewrite (D5 S).
Qed.
(** Nothing is executed before its time plus the playout delay, and after an update
    nothing that is due is left waiting. *)
Theorem C28_timely own ents evs s logs due s' log :
  NoDup ents → Forall (devent_ok ents) evs → drun (server_of own ents) evs = Ok (s, logs) →
  dstep s (DDispatch due) = Ok (s', log) →
  (∀ e a, (e, a) ∈ log → e_time a ≤ due (own e)) ∧
  (∀ e c h a, (e, c, h) ∈ ds_hists s' → a ∈ h_entries h → due c < e_time a).
Proof.
  intros ND F E S. destruct (drun_ok own ents evs [] (λ _, []) _ ND (server_inv own ents) F) as (s1 & logs' & E' & I).
  assert (s1 = s) as -> by congruence. cbn [dstep] in S.
  destruct (dispatch due (ds_hists s) (ds_exec s)) as [[l1 h1] m1] eqn:D. injection S as <- <-.
  destruct (dispatch_ok own ents due _ _ _ [] _ _ _ _ ND I D) as (_ & X & Y). split; [done|].
  intros e c h a H Ha. cbn [ds_hists] in H. eapply Forall_forall in Y; [|exact H]. cbn [fst snd] in Y.
  by eapply Forall_forall in Y.
Qed.
(** With two entities of one client, an accepted action can be dropped without ever
    being executed, in a single update. *)
Theorem C28_two_entities_refuted :
  ∃ evs s logs a, Forall (devent_ok [1; 2]%nat) evs ∧ drun (server_of (λ _, 7%nat) [1; 2]%nat) evs = Ok (s, logs) ∧
    a ∈ accepted 2 [] evs ∧ (2%nat, a) ∉ concat logs ∧ (∀ e c h, (e, c, h) ∈ ds_hists s → h_entries h = []).
Proof.
  exists [DMerge 1 [Entry 5 0]; DMerge 2 [Entry 3 1]; DDispatch (λ _, 10)]. do 2 eexists. exists (Entry 3 1).
  split_and!.
  - repeat constructor; cbn; try done; apply (bool_decide_unpack _); vm_compute; exact I.
  - vm_compute. reflexivity.
  - apply (bool_decide_unpack _). vm_compute. exact I.
  - apply (bool_decide_unpack _). vm_compute. exact I.
  - cbn. intros e c h H. apply elem_of_cons in H as [[= -> -> ->]|H]; [done|].
    apply elem_of_cons in H as [[= -> -> ->]|H%elem_of_nil]; done.
Qed.
(** A case: two clients, one with two entities. *)
Example C28_case :
  let evs := [DMerge 1 [Entry 2 0; Entry 4 1]; DMerge 3 [Entry 3 2]; DDispatch (λ _, 3);
              DMerge 1 [Entry 2 0; Entry 4 1; Entry 6 3]; DMerge 2 [Entry 8 4]; DDispatch (λ _, 9)] in
  NoDup [1; 2; 3]%nat ∧ Forall (devent_ok [1; 2; 3]%nat) evs ∧
  match drun (server_of (λ e, if decide (e = 3)%nat then 8%nat else 7%nat) [1; 2; 3]%nat) evs with
  | Ok (_, logs) => logs = [[]; []; [(1, Entry 2 0); (3, Entry 3 2)]; []; [];
      [(1, Entry 4 1); (1, Entry 6 3); (2, Entry 8 4)]]%nat
  | _ => False
  end.
Proof.
  cbn zeta. split_and!.
  - apply (bool_decide_unpack _). vm_compute. exact I.
  - repeat constructor; cbn; try done; try lia; apply (bool_decide_unpack _); vm_compute; exact I.
  - vm_compute. reflexivity.
Qed.

(** ** C29 *)
(** Each update processes exactly the packets that arrived, were not processed and
    are due, by time and in order of arrival for equal times; the others stay. *)
Theorem C29_queue evs q xs :
  qrun [] evs = (q, xs) → ∃ fin, qsem [] evs xs fin ∧ ordered_as fin q.
Proof. apply qrun_sem. split; [constructor|done]. Qed.
(** No packet is lost or processed twice. *)
Theorem C29_exactly_once evs q xs : qrun [] evs = (q, xs) → concat xs ++ q ≡ₚ arrived evs.
Proof.
  intros E. destruct (C29_queue evs q xs E) as (fin & Q & O). rewrite (ordered_perm _ _ O).
  by rewrite (qsem_perm _ _ _ _ Q).
Qed.
(** If no packet arrives later than its turn, the order is by time over all updates. *)
Theorem C29_global_order evs q xs d :
  qrun [] evs = (q, xs) → in_time d evs → q_sorted (concat xs).
Proof.
  intros E T. destruct (C29_queue evs q xs E) as (fin & Q & O).
  by apply (qsem_in_time d _ _ _ _ Q (Forall_nil_2 _)).
Qed.
(** Packets are never given a time in the future (when the round trip time is not negative). *)
Theorem C29_no_future synced sent delta time half_rtt :
  0 ≤ half_rtt → packet_time synced sent delta time half_rtt ≤ time.
Proof. unfold packet_time. destruct synced; lia. Qed.
(** A late packet is processed after newer ones. *)
Theorem C29_late_packet_refuted :
  ∃ evs q xs, qrun [] evs = (q, xs) ∧ ¬ q_sorted (concat xs).
Proof.
  exists [QArrive (TPacket 5 0); QUpdate 6; QArrive (TPacket 3 1); QUpdate 7]. do 2 eexists.
  split; [vm_compute; reflexivity|]. intros H. inversion H as [|? ? _ F]; subst. inversion F; subst. cbn in *. lia.
Qed.
Example C29_case :
  let evs := [QArrive (TPacket 5 0); QArrive (TPacket 3 1); QArrive (TPacket 5 2); QArrive (TPacket 4 3);
              QUpdate 4; QArrive (TPacket 5 4); QUpdate 5] in
  in_time 0 evs ∧ (snd (qrun [] evs)) = [[]; []; []; []; [TPacket 3 1; TPacket 4 3]; [];
     [TPacket 5 0; TPacket 5 2; TPacket 5 4]].
Proof. cbn zeta. split; [cbn; lia|vm_compute; reflexivity]. Qed.

(** ** C46 *)
(** Step [k] of an extrapolation from [t] imports exactly the recorded entries of the
    closed interval that ends at the time of the step, in order. *)
Theorem C46_window t dt n l k :
  by_time l → (k < n)%nat →
  x_steps t dt n l !! k =
    Some (filter (λ e, t + Z.of_nat k * dt - dt ≤ e_time e ≤ t + Z.of_nat k * dt) l).
Proof.
  intros B K. rewrite x_steps_lookup by done. f_equal. rewrite import_each_ok by done.
  apply filter_ext_in. intros x _. lia.
Qed.
(** An entry strictly between two steps is imported in exactly one of them. *)
Theorem C46_between_steps_once t dt n l k e j x :
  by_time l → 0 < dt → (k < n)%nat → e ∈ l →
  t + Z.of_nat k * dt - dt < e_time e < t + Z.of_nat k * dt →
  x_steps t dt n l !! j = Some x → (e ∈ x ↔ j = k).
Proof.
  intros B D K H T X.
  assert (J : (j < n)%nat). { apply lookup_lt_Some in X. by rewrite x_steps_length in X. }
  rewrite C46_window in X by done. injection X as <-. rewrite elem_of_list_filter. split.
  - intros [[X1 X2] _]. assert (Z.of_nat j = Z.of_nat k) by nia. lia.
  - intros ->. split; [lia|done].
Qed.
(** Nothing recorded since one step before the start is missed. *)
Theorem C46_none_missed t dt n l e :
  by_time l → 0 < dt → (0 < n)%nat → e ∈ l → t - dt ≤ e_time e ≤ t + Z.of_nat (n - 1) * dt →
  ∃ k x, x_steps t dt n l !! k = Some x ∧ e ∈ x.
Proof.
  intros B D N H T.
  destruct (decide (e_time e ≤ t)) as [L|L].
  - exists 0%nat. eexists. split; [by apply C46_window|]. apply elem_of_list_filter. split; [lia|done].
  - set (z := (e_time e - t + dt - 1) / dt).
    assert (Z1 : dt * z ≤ e_time e - t + dt - 1) by (apply Z.mul_div_le; lia).
    assert (Z2 : e_time e - t + dt - 1 < dt * Z.succ z) by (apply Z.mul_succ_div_gt; lia).
    assert (0 < z) by nia. assert (z < Z.of_nat n) by nia.
    exists (Z.to_nat z). eexists. split; [apply C46_window; [done|lia]|]. apply elem_of_list_filter.
    split; [|done]. rewrite Z2Nat.id by lia. nia.
Qed.
(** An action whose time is that of a step is executed in that step and again in the
    next one. *)
Theorem C46_on_step_twice t dt n l k e :
  by_time l → 0 < dt → (S k < n)%nat → e ∈ l → e_time e = t + Z.of_nat k * dt →
  ∃ x y, x_steps t dt n l !! k = Some x ∧ x_steps t dt n l !! S k = Some y ∧ e ∈ x ∧ e ∈ y.
Proof.
  intros B D K H T. eexists _, _. split_and!; [apply C46_window; [done|lia]..| |];
    apply elem_of_list_filter; (split; [lia|done]).
Qed.
Theorem C46_on_step_refuted :
  ∃ t dt n l e, by_time l ∧ 0 < dt ∧ e ∈ l ∧ length (filter (λ x, e ∈ x) (x_steps t dt n l)) = 2%nat.
Proof.
  exists 4, 2, 3%nat, [Entry 6 2], (Entry 6 2). split_and!; [repeat constructor|done|by left|vm_compute; reflexivity].
Qed.
(** The initial input is the last one recorded at or before the time. *)
Theorem C46_latest t l :
  match r_import_latest t l with
  | Some e => ∃ a b, l = a ++ e :: b ∧ e_time e ≤ t ∧ Forall (λ x, t < e_time x) b
  | None => Forall (λ x, t < e_time x) l
  end.
Proof. apply import_latest_ok. Qed.
(** Erasing keeps the inputs after the given time, hence what is imported at any later
    time for which a kept input exists is unchanged. *)
Theorem C46_erase t l :
  by_time l → w_erase_inputs t l = filter (λ e, t < e_time e) l.
Proof.
  intros B. unfold w_erase_inputs. rewrite (from_first_filter (λ a b, e_time a ≤ e_time b)); [|done|].
  - apply filter_ext_in. intros x _. by rewrite Z.ltb_lt.
  - intros x y R. rewrite !Z.ltb_lt. lia.
Qed.
(** The value in effect at the erasure time is forgotten: an input that did not change
    since is no longer imported. *)
Theorem C46_erased_input_refuted :
  ∃ t l e, by_time l ∧ r_import_latest t l = Some e ∧ r_import_latest t (w_erase_inputs t l) = None.
Proof. exists 5, [Entry 2 0; Entry 8 1], (Entry 2 0). split_and!; [repeat constructor; cbn; lia|done|done]. Qed.
Example C46_case :
  by_time stream ∧ x_steps 4 2 3 stream = [[Entry 3 0]; [Entry 5 1; Entry 6 2]; [Entry 6 2]] ∧
  r_import_latest 5 stream = Some (Entry 5 1).
Proof. split_and!; [repeat constructor; cbn; lia|vm_compute; reflexivity..]. Qed.

Print Assumptions C27_history. Print Assumptions C27_resend. Print Assumptions C27_no_action_lost.
Print Assumptions C27_server_merge. Print Assumptions C27_nonpositive_time_refuted.
Print Assumptions C27_equal_times_refuted. Print Assumptions C27_clock_change_refuted.
Print Assumptions C27_missing_history_refuted. Print Assumptions C27_first_copy_refuted.
Print Assumptions C27_copy_after_first. Print Assumptions C28_executed_once. Print Assumptions C28_single_entity.
Print Assumptions C28_timely. Print Assumptions C28_two_entities_refuted. Print Assumptions C29_queue.
Print Assumptions C29_exactly_once. Print Assumptions C29_global_order. Print Assumptions C29_no_future.
Print Assumptions C29_late_packet_refuted. Print Assumptions C46_window. Print Assumptions C46_between_steps_once.
Print Assumptions C46_none_missed. Print Assumptions C46_on_step_refuted. Print Assumptions C46_on_step_twice. Print Assumptions C46_latest.
Print Assumptions C46_erase. Print Assumptions C46_erased_input_refuted.

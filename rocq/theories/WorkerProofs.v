(** Proofs about the worker and the choice of a worker. *)
From Verif Require Import Outcome JobModel JobSpec TaskProofs JobProofs.

Lemma ran_app l l' : ran (l ++ l') = ran l ++ ran l'.
Proof. unfold ran. apply omap_app. Qed.
Lemma pushed_app l l' : pushed (l ++ l') = pushed l ++ pushed l'.
Proof. unfold pushed. apply omap_app. Qed.

(** Shape of the steps *)
Lemma k_client_shape s i : k_step s (S i) = s ∧ ¬ k_can s (S i) ∨
  (∃ j r, k_cl s !! i = Some (CNext (WPush j :: r)) ∧
    k_step s (S i) = WkSt (k_running s) (k_size s) (k_queue s ++ [Some j]) (k_thr s) (<[i := CNotify true r]> (k_cl s)) (k_log s ++ [Pushed j])) ∨
  (∃ r, k_cl s !! i = Some (CNext (WStop :: r)) ∧
    k_step s (S i) = WkSt false (k_size s) (k_queue s) (k_thr s) (<[i := CPushNoop r]> (k_cl s)) (k_log s ++ [Stopped])) ∨
  (∃ r, k_cl s !! i = Some (CPushNoop r) ∧
    k_step s (S i) = WkSt (k_running s) (k_size s) (k_queue s ++ [None]) (k_thr s) (<[i := CNotify false r]> (k_cl s)) (k_log s)) ∨
  (∃ inc r, k_cl s !! i = Some (CNotify inc r) ∧
    k_step s (S i) = WkSt (k_running s) (k_size s) (k_queue s) (match k_thr s with RSleep _ => RSleep true | p => p end)
      (<[i := if inc then CInc r else CNext r]> (k_cl s)) (k_log s)) ∨
  (∃ r, k_cl s !! i = Some (CInc r) ∧
    k_step s (S i) = WkSt (k_running s) (k_size s + 1) (k_queue s) (k_thr s) (<[i := CNext r]> (k_cl s)) (k_log s)).
Proof.
  unfold k_can, k_step. destruct (k_cl s !! i) as [p|] eqn:E; [|left; tauto].
  destruct p as [[|[j|] r]|inc r|r|r].
  - left. tauto.
  - right; left. eauto.
  - right; right; left. eauto.
  - right; right; right; right; left. exists inc, r. split; [done|]. unfold k_cset, k_rset. cbn. by destruct (k_thr s).
  - do 5 right. exists r. done.
  - right; right; right; left. eauto.
Qed.

Lemma k_account_step s l : pushed (k_log s) = ran (k_log s) ++ in_hand s ++ in_queue s →
  pushed (k_log (k_label s l)) = ran (k_log (k_label s l)) ++ in_hand (k_label s l) ++ in_queue (k_label s l).
Proof.
  intros H. destruct l as [[|i]|].
  - cbn [k_label]. unfold k_step. destruct s as [run sz q th cl log]. unfold in_hand, in_queue in *. cbn [k_thr k_queue k_log k_rset k_running] in *.
    destruct th as [| |[]|j| | |]; cbn [k_thr k_queue k_log k_rset] in *; try done.
    + destruct q as [|[j|] q]; simpl in *; done.
    + destruct q as [|[j|] q]; simpl in *; done.
    + rewrite pushed_app, ran_app. destruct j as [j|]; simpl in *; rewrite ?(right_id_L [] (++)); rewrite H; by rewrite <- ?(assoc_L (++)).
    + by destruct run.
  - cbn [k_label]. destruct (k_client_shape s i) as [[-> _]|[(j & r & E & ->)|[(r & E & ->)|[(r & E & ->)|[(inc & r & E & ->)|(r & E & ->)]]]]]; [done|..];
      destruct s as [run sz q th cl log]; unfold in_hand, in_queue in *; cbn [k_thr k_queue k_log k_rset k_running] in *.
    + rewrite pushed_app, ran_app, omap_app, H. simpl. by rewrite (right_id_L [] (++)), !(assoc_L (++)).
    + rewrite pushed_app, ran_app. simpl. by rewrite !(right_id_L [] (++)).
    + rewrite omap_app. simpl. by rewrite (right_id_L [] (++)).
    + rewrite H. by destruct th.
    + done.
  - simpl. destruct s as [run sz q th cl log]. by destruct th.
Qed.
Lemma k_account progs sched : let s := k_run (k_init progs) sched in
  pushed (k_log s) = ran (k_log s) ++ in_hand s ++ in_queue s.
Proof.
  simpl. unfold k_run. assert (G : pushed (k_log (k_init progs)) = ran (k_log (k_init progs)) ++ in_hand (k_init progs) ++ in_queue (k_init progs)) by done.
  revert G. generalize (k_init progs). induction sched as [|x l IH]; intros s G; [done|]. simpl. apply IH. by apply k_account_step.
Qed.

(** ** Shutdown *)
Definition cweight (p : cpc) : nat :=
  match p with CNext r => 12 * length r | CInc r => 12 * length r + 1 | CNotify _ r => 12 * length r + 3 | CPushNoop r => 12 * length r + 10 end.
Definition rweight (p : rpc) : nat :=
  match p with RStart => 3 | RPop => 2 | RSleep true => 2 | RSleep false => 1 | RRun _ => 5 | RDec => 4 | RTest => 3 | RDone => 0 end.
Definition kweight (s : wkst) : nat := sum cweight (k_cl s) + 6 * length (k_queue s) + rweight (k_thr s).

Lemma k_step_weight s i : k_can s i → kweight (k_step s i) < kweight s.
Proof.
  destruct i as [|i].
  - unfold k_can, k_step, kweight. destruct (k_thr s) as [| |[]|j| | |] eqn:E; intros Hc; try done; cbn [k_cl k_queue k_thr k_rset rweight].
    + lia.
    + destruct (k_queue s) eqn:Eq; simpl; rewrite ?Eq; simpl; lia.
    + destruct (k_queue s) eqn:Eq; simpl; rewrite ?Eq; simpl; lia.
    + lia.
    + lia.
    + destruct (k_running s); simpl; lia.
  - intros Hc. unfold kweight. destruct (k_client_shape s i) as [[_ ?]|[(j & r & E & ->)|[(r & E & ->)|[(r & E & ->)|[(inc & r & E & ->)|(r & E & ->)]]]]]; [done|..];
      cbn [k_cl k_queue k_thr].
    + pose proof (sum_insert cweight _ _ _ (CNotify true r) E) as S. simpl in S. rewrite app_length. simpl. lia.
    + pose proof (sum_insert cweight _ _ _ (CPushNoop r) E) as S. simpl in S. lia.
    + pose proof (sum_insert cweight _ _ _ (CNotify false r) E) as S. simpl in S. rewrite app_length. simpl. lia.
    + pose proof (sum_insert cweight _ _ _ (if inc then CInc r else CNext r) E) as S. simpl in S.
      assert (cweight (if inc then CInc r else CNext r) ≤ 12 * length r + 1) by (destruct inc; simpl; lia).
      assert (rweight (match k_thr s with RSleep _ => RSleep true | p => p end) ≤ rweight (k_thr s) + 1) by (destruct (k_thr s) as [| |[]| | | |]; simpl; lia). lia.
    + pose proof (sum_insert cweight _ _ _ (CNext r) E) as S. simpl in S. lia.
Qed.

(** A stop is still to take effect. *)
Definition stop_pending (s : wkst) : Prop :=
  ∃ i p, k_cl s !! i = Some p ∧ (WStop ∈ rest_of p ∨ (∃ r, p = CPushNoop r) ∧ k_running s = false).
Definition stopping (s : wkst) : Prop :=
  k_running s = false ∧ (k_queue s ≠ [] ∨ match k_thr s with RRun _ | RDec | RTest | RDone => True | _ => False end).
Definition cnotify (p : cpc) : nat := match p with CNotify _ _ => 1 | _ => 0 end.
Record kinv (s : wkst) : Prop := {
  ki_start : k_thr s ≠ RStart;
  ki_stop : stop_pending s ∨ stopping s;
  ki_sleep : k_thr s = RSleep false → length (k_queue s) ≤ sum cnotify (k_cl s);
}.
(** The wake-up invariant holds from the start. *)
Definition ksleep (s : wkst) : Prop := k_thr s = RSleep false → length (k_queue s) ≤ sum cnotify (k_cl s).
Lemma ksleep_step s l : ksleep s → ksleep (k_label s l).
Proof.
  intros H. destruct l as [[|i]|].
  - unfold ksleep, k_label, k_step in *. destruct (k_thr s) as [| |[]|j| | |] eqn:E; cbn [k_cl k_queue k_thr k_rset]; rewrite ?E; try done.
    + destruct (k_queue s) eqn:Eq; cbn [k_cl k_queue k_thr k_rset]; [rewrite Eq; simpl; lia|done].
    + destruct (k_queue s) eqn:Eq; cbn [k_cl k_queue k_thr k_rset]; [rewrite Eq; simpl; lia|done].
    + by destruct (k_running s).
  - unfold ksleep in *. cbn [k_label].
    destruct (k_client_shape s i) as [[-> ?]|[(j & r & E & ->)|[(r & E & ->)|[(r & E & ->)|[(inc & r & E & ->)|(r & E & ->)]]]]]; [done|..];
      cbn [k_cl k_queue k_thr]; intros Hs.
    + specialize (H Hs). pose proof (sum_insert cnotify _ _ _ (CNotify true r) E) as S. simpl in S. rewrite app_length. simpl. lia.
    + specialize (H Hs). pose proof (sum_insert cnotify _ _ _ (CPushNoop r) E) as S. simpl in S. lia.
    + specialize (H Hs). pose proof (sum_insert cnotify _ _ _ (CNotify false r) E) as S. simpl in S. rewrite app_length. simpl. lia.
    + by destruct (k_thr s).
    + specialize (H Hs). pose proof (sum_insert cnotify _ _ _ (CNext r) E) as S. simpl in S. lia.
  - unfold ksleep, k_label in *. destruct (k_thr s) eqn:E; cbn [k_thr k_rset]; rewrite ?E; try done.
Qed.
Lemma ksleep_run progs sched : ksleep (k_run (k_init progs) sched).
Proof.
  unfold k_run. assert (G : ksleep (k_init progs)) by done. revert G. generalize (k_init progs).
  induction sched as [|x l IH]; intros s G; [done|]. simpl. apply IH. by apply ksleep_step.
Qed.

Lemma pending_insert s s' i p p' : k_cl s !! i = Some p → k_cl s' = <[i := p']> (k_cl s) → (k_running s = false → k_running s' = false) →
  (WStop ∈ rest_of p → WStop ∈ rest_of p' ∨ (∃ r, p' = CPushNoop r) ∧ k_running s' = false) → (¬ ∃ r, p = CPushNoop r) → stop_pending s → stop_pending s'.
Proof.
  intros E E' Hr Hp Hn (u & q & Eu & Hq). destruct (decide (u = i)) as [->|Hne].
  - rewrite E in Eu. simplify_eq. exists i, p'. rewrite E', list_lookup_insert by (by eapply lookup_lt_Some). split; [done|].
    destruct Hq as [Hq|[(r & ->) _]]; [by apply Hp|]. destruct Hn. by exists r.
  - exists u, q. rewrite E', list_lookup_insert_ne by done. split; [done|]. destruct Hq as [Hq|[Hq1 Hq2]]; [by left|]. right. auto.
Qed.
Lemma kinv_step s i : kinv s → kinv (k_step s i).
Proof.
  intros [H1 H2 H3]. constructor.
  - destruct i as [|i].
    + unfold k_step. destruct (k_thr s) as [| |[]|j| | |] eqn:E; cbn [k_thr k_rset]; rewrite ?E; try done.
      * by destruct (k_queue s).
      * by destruct (k_queue s).
      * by destruct (k_running s).
    + destruct (k_client_shape s i) as [[-> ?]|[(j & r & E & ->)|[(r & E & ->)|[(r & E & ->)|[(inc & r & E & ->)|(r & E & ->)]]]]]; cbn [k_thr]; try done.
      by destruct (k_thr s).
  - destruct i as [|i].
    + assert (Hc : k_cl (k_step s 0) = k_cl s ∧ k_running (k_step s 0) = k_running s).
      { unfold k_step. destruct (k_thr s) as [| |[]|j| | |]; try done; by destruct (k_queue s). }
      destruct Hc as [Hc Hr]. destruct H2 as [(u & q & Eu & Hq)|[Hf Hq]].
      * left. exists u, q. by rewrite Hc, Hr.
      * right. split; [by rewrite Hr|]. unfold k_step. destruct (k_thr s) as [| |[]|j| | |] eqn:E; cbn [k_thr k_queue k_rset]; rewrite ?E; auto.
        -- destruct (k_queue s) eqn:Eq; cbn [k_thr k_queue k_rset]; [by destruct Hq|auto].
        -- destruct (k_queue s) eqn:Eq; cbn [k_thr k_queue k_rset]; [by destruct Hq|auto].
        -- rewrite Hf. auto.
    + destruct (k_client_shape s i) as [[-> ?]|[(j & r & E & ->)|[(r & E & ->)|[(r & E & ->)|[(inc & r & E & ->)|(r & E & ->)]]]]]; [done|..].
      * destruct H2 as [H2|[Hf Hq]].
        -- left. eapply (pending_insert s _ i); [done|done|done|..|done]; simpl.
           ++ intros [?|?]%elem_of_cons; [done|by left].
           ++ by intros (? & ?).
        -- right. split; [done|]. cbn [k_queue k_thr]. left. by destruct (k_queue s).
      * left. exists i, (CPushNoop r). cbn [k_cl k_running]. rewrite list_lookup_insert by (by eapply lookup_lt_Some). split; [done|]. right. eauto.
      * destruct (k_running s) eqn:Er.
        -- destruct H2 as [(u & q & Eu & Hq)|[? _]]; [|congruence]. left.
           destruct (decide (u = i)) as [->|Hne].
           ++ rewrite E in Eu. simplify_eq. exists i, (CNotify false r). cbn [k_cl k_running]. rewrite list_lookup_insert by (by eapply lookup_lt_Some).
              split; [done|]. left. destruct Hq as [Hq|[_ ?]]; [done|congruence].
           ++ exists u, q. cbn [k_cl k_running]. rewrite list_lookup_insert_ne by done. split; [done|]. by rewrite <- Er.
        -- right. split; [done|]. cbn [k_queue]. left. by destruct (k_queue s).
      * destruct H2 as [H2|[Hf Hq]].
        -- left. eapply (pending_insert s _ i); [done|done|done|..|done]; simpl.
           ++ intros ?. left. by destruct inc.
           ++ by intros (? & ?).
        -- right. split; [done|]. cbn [k_queue k_thr]. destruct Hq as [Hq|Hq]; [by left|right]. by destruct (k_thr s).
      * destruct H2 as [H2|[Hf Hq]].
        -- left. eapply (pending_insert s _ i); [done|done|done|..|done]; simpl.
           ++ by left.
           ++ by intros (? & ?).
        -- by right.
  - by apply (ksleep_step s (Some i)).
Qed.
Lemma k_stop_terminates progs sched i p : let s0 := k_run (k_init progs) sched in
  k_running s0 = true → k_thr s0 ≠ RStart → k_cl s0 !! i = Some p → WStop ∈ rest_of p →
  ∃ bound, ∀ l s, k_acts s0 l s → length l ≤ bound ∧ (stuck s → k_thr s = RDone).
Proof.
  intros s0 Hr Hst Hi Hp. exists (kweight s0).
  assert (I : kinv s0). { constructor; [done| |apply ksleep_run]. left. exists i, p. auto. }
  clearbody s0. clear Hr Hst Hi Hp. intros l s H. assert (G : kinv s ∧ length l + kweight s ≤ kweight s0).
  { induction H as [|s i' l s' Hc _ IH]; [done|]. destruct IH as [? ?]; [by apply kinv_step|]. split; [done|].
    pose proof (k_step_weight s i' Hc). simpl. lia. }
  destruct G as [[H1 H2 H3] HL]. split; [lia|]. intros Hs.
  assert (Hcl : ∀ u q, k_cl s !! u = Some q → q = CNext []).
  { intros u q Eu. specialize (Hs (S u)). unfold k_can in Hs. rewrite Eu in Hs. destruct q as [[]| | |]; try done; by destruct Hs. }
  pose proof (Hs 0) as H0. unfold k_can in H0. destruct (k_thr s) as [| |[]|j| | |] eqn:Et; try done; try by destruct H0.
  exfalso. destruct H2 as [(u & q & Eu & Hq)|[Hf Hq]].
  - rewrite (Hcl u q Eu) in Hq. simpl in Hq. destruct Hq as [Hq|[(r & ?) _]]; [by apply elem_of_nil in Hq|done].
  - rewrite Et in Hq. destruct Hq as [Hq|Hq]; [|done]. specialize (H3 eq_refl).
    assert (sum cnotify (k_cl s) = 0). { apply sum_zero. intros x (u & Eu)%elem_of_list_lookup. by rewrite (Hcl u x Eu). }
    apply Hq. apply nil_length_inv. lia.
Qed.

(** ** Choice of a worker *)
Lemma choose_spec ks sizes best least : (∀ k, k ∈ ks → k < length sizes) →
  match choose ks sizes best least with
  | Ok k => (k ∈ ks ∧ ∃ s, sizes !! k = Some s ∧ (s = 0%Z ∨ (s < least)%Z ∧ ∀ k' s', k' ∈ ks → sizes !! k' = Some s' → (s ≤ s')%Z ∧ s' ≠ 0%Z)) ∨
    (best = Some k ∧ ∀ k' s', k' ∈ ks → sizes !! k' = Some s' → (least ≤ s')%Z ∧ s' ≠ 0%Z)
  | AssertFail => best = None ∧ ∀ k' s', k' ∈ ks → sizes !! k' = Some s' → (least ≤ s')%Z ∧ s' ≠ 0%Z
  | _ => False
  end.
Proof.
  revert best least. induction ks as [|k ks IH]; intros best least Hk; simpl.
  - destruct best; [right; split; [done|]|split; [done|]]; by intros ? ? ?%elem_of_nil.
  - destruct (lookup_lt_is_Some_2 sizes k) as [s Es]; [apply Hk; by left|]. rewrite Es. simpl.
    assert (Hk' : ∀ k, k ∈ ks → k < length sizes) by (intros; apply Hk; by right).
    destruct (decide (s = 0%Z)) as [->|Hz]; [left; split; [by left|]; eauto|].
    destruct (decide (s < least)%Z) as [Hl|Hl].
    + specialize (IH (Some k) s Hk'). destruct (choose ks sizes (Some k) s) as [k1| | |]; try done.
      * left. destruct IH as [(Hin & s1 & E1 & H1)|([= <-] & H1)].
        -- split; [by right|]. exists s1. split; [done|]. destruct H1 as [->|[H1 H2]]; [by left|right]. split; [lia|].
           intros k' s' [->|Hin']%elem_of_cons E'; [rewrite Es in E'; simplify_eq; lia|by eapply H2].
        -- split; [by left|]. exists s. split; [done|]. right. split; [done|].
           intros k' s' [->|Hin']%elem_of_cons E'; [rewrite Es in E'; simplify_eq; lia|by eapply H1].
      * by destruct IH.
    + specialize (IH best least Hk'). destruct (choose ks sizes best least) as [k1| | |]; try done.
      * destruct IH as [(Hin & s1 & E1 & H1)|(-> & H1)].
        -- left. split; [by right|]. exists s1. split; [done|]. destruct H1 as [->|[H1 H2]]; [by left|right]. split; [done|].
           intros k' s' [->|Hin']%elem_of_cons E'; [rewrite Es in E'; simplify_eq; lia|by eapply H2].
        -- right. split; [done|]. intros k' s' [->|Hin']%elem_of_cons E'; [rewrite Es in E'; simplify_eq; lia|by eapply H1].
      * destruct IH as [-> H1]. split; [done|]. intros k' s' [->|Hin']%elem_of_cons E'; [rewrite Es in E'; simplify_eq; lia|by eapply H1].
Qed.
(** The rotation visits every worker. *)
Lemma rotation n start k : 0 < n → k ∈ ((λ i, i mod n) <$> seq (start mod n) n) ↔ k < n.
Proof.
  intros Hn. rewrite elem_of_list_fmap. split.
  - intros (i & -> & _). apply Nat.mod_upper_bound. lia.
  - intros Hk. assert (Hm : start mod n < n) by (apply Nat.mod_upper_bound; lia). set (m := start mod n) in *.
    destruct (decide (m ≤ k)) as [H|H].
    + exists k. rewrite Nat.mod_small by done. rewrite elem_of_seq. split; [done|lia].
    + exists (k + n). rewrite elem_of_seq. split; [|lia]. rewrite <- (Nat.mul_1_l n) at 1. rewrite Nat.mod_add by lia. by rewrite Nat.mod_small.
Qed.
Lemma async_spec maxs start sizes : sizes ≠ [] → (∀ s, s ∈ sizes → (0 ≤ s ≤ maxs)%Z) →
  match async maxs start sizes with
  | Ok k => ∃ s, sizes !! k = Some s ∧ ∀ s', s' ∈ sizes → (s ≤ s')%Z
  | AssertFail => 2 ≤ length sizes ∧ ∀ s, s ∈ sizes → s = maxs
  | _ => False
  end.
Proof.
  intros Hne Hb. unfold async. set (n := length sizes). assert (Hn : 0 < n) by (unfold n; destruct sizes; [done|simpl; lia]).
  rewrite bool_decide_true by done. cbn [assert_ mbind res_bind]. destruct (decide (n = 1)) as [H1|H1].
  - destruct sizes as [|s [|]]; try done. exists s. split; [done|]. intros s' ->%elem_of_list_singleton. lia.
  - set (ks := _ <$> _). pose proof (choose_spec ks sizes None maxs) as C. assert (Hk : ∀ k, k ∈ ks ↔ k < n) by (intros; by apply rotation).
    specialize (C (λ k, proj1 (Hk k))). destruct (choose ks sizes None maxs) as [k| | |]; try done.
    + destruct C as [(Hin & s & Es & Hs)|[? _]]; [|done]. exists s. split; [done|]. intros s' Hin'.
      destruct Hs as [->|[_ Hs]]; [by apply Hb|]. apply elem_of_list_lookup in Hin' as (k' & E'). eapply (Hs k' s'); [|done].
      apply Hk. by eapply lookup_lt_Some.
    + destruct C as [_ C]. split; [fold n; lia|]. intros s Hin. pose proof (Hb s Hin). apply elem_of_list_lookup in Hin as (k' & E').
      assert (k' ∈ ks) by (apply Hk; by eapply lookup_lt_Some). destruct (C k' s); [done..|lia].
Qed.
Lemma async_saturated maxs start sizes : 2 ≤ length sizes → (0 < maxs)%Z → (∀ s, s ∈ sizes → s = maxs) → async maxs start sizes = AssertFail.
Proof.
  intros Hl Hm Hall. pose proof (async_spec maxs start sizes) as A. unfold async in *. set (n := length sizes) in *.
  rewrite bool_decide_true by lia. cbn [assert_ mbind res_bind]. rewrite decide_False by lia.
  set (ks := _ <$> _). assert (Hk : ∀ k, k ∈ ks → k < n) by (intros k Hk; apply (rotation n start); [lia|done]).
  pose proof (choose_spec ks sizes None maxs Hk) as C. destruct (choose ks sizes None maxs) as [k| | |]; try done.
  destruct C as [(Hin & s & Es & Hs)|[? _]]; [|done]. assert (s = maxs) as -> by (apply Hall; by eapply elem_of_list_lookup_2).
  destruct Hs as [->|[Hs _]]; lia.
Qed.

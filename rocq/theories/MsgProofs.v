(** Proofs about messages. *)
From Verif Require Import Outcome MsgModel MsgSpec.

Lemma sent_app q l l' : sent q (l ++ l') = sent q l ++ sent q l'.
Proof. unfold sent. apply omap_app. Qed.
Lemma taken_app f l l' : taken_by f (l ++ l') = taken_by f l ++ taken_by f l'.
Proof. unfold taken_by. apply bind_app. Qed.
Lemma delivered_app h l l' : delivered h (l ++ l') = delivered h l ++ delivered h l'.
Proof. unfold delivered. apply omap_app. Qed.
Lemma heard_app t l l' : heard t (l ++ l') = heard t l ++ heard t l'.
Proof. unfold heard. apply filter_app. Qed.

Lemma lookup_snoc_inv {A} (l : list A) x i y : (l ++ [x]) !! i = Some y → l !! i = Some y ∨ i = length l ∧ y = x.
Proof.
  intros H. apply lookup_app_Some in H as [H|[Hl H]]; [by left|]. right. apply list_lookup_singleton_Some in H as [? <-]. split; [lia|done].
Qed.

Definition is_h (h h' : nat) : bool := bool_decide (h' = h).

Record minv (s : mst) : Prop := {
  mi_names n q : m_names s !! n = Some q → alive s q;
  mi_take h ms : ETake h ms ∈ m_log s → h < length (m_handles s);
  mi_del h m : EDeliver h m ∈ m_log s → h < length (m_handles s);
  mi_sent q m : ESent q m ∈ m_log s → q < length (m_objs s);
  mi_queue h d : m_handles s !! h = Some d → h_queue d < length (m_objs s);
  mi_acc q : alive s q → sent q (m_log s) = taken_by (reads s q) (m_log s) ++ waiting s q;
  mi_heard h d : m_handles s !! h = Some d →
    heard (h_types d) (taken_by (is_h h) (m_log s)) = delivered h (m_log s) ++ heard (h_types d) (h_flight d);
}.

Lemma taken_ext f g l : (∀ h ms, ETake h ms ∈ l → f h = g h) → taken_by f l = taken_by g l.
Proof.
  unfold taken_by. induction l as [|e l IH]; intros H; [done|]. rewrite !bind_cons. rewrite IH by (intros; eapply H; by right). f_equal.
  destruct e; try done. rewrite (H h ms) by (by left). done.
Qed.
Lemma taken_none f l : (∀ h ms, ETake h ms ∈ l → f h = false) → taken_by f l = [].
Proof.
  unfold taken_by. induction l as [|e l IH]; intros H; [done|]. rewrite bind_cons, IH by (intros; eapply H; by right).
  destruct e; try done. by rewrite (H h ms) by (by left).
Qed.
Lemma sent_none q l : (∀ m, ESent q m ∉ l) → sent q l = [].
Proof.
  induction l as [|e l IH]; intros H; [done|]. change (e :: l) with ([e] ++ l). rewrite sent_app, IH by (intros m ?; apply (H m); by right).
  unfold sent. destruct e; try done. simpl. case_decide; [|done]. subst. exfalso. eapply H. by left.
Qed.
Lemma delivered_none h l : (∀ m, EDeliver h m ∉ l) → delivered h l = [].
Proof.
  induction l as [|e l IH]; intros H; [done|]. change (e :: l) with ([e] ++ l). rewrite delivered_app, IH by (intros m ?; apply (H m); by right).
  unfold delivered. destruct e; try done. simpl. case_decide; [|done]. subst. exfalso. eapply H. by left.
Qed.

Lemma taken_other f e : (∀ h ms, e ≠ ETake h ms) → taken_by f [e] = [].
Proof. intros H. apply taken_none. intros h ms Hin. apply elem_of_list_singleton in Hin. by destruct (H h ms). Qed.

Lemma taken_take f h ms : taken_by f [ETake h ms] = if f h then ms else [].
Proof. unfold taken_by. simpl. by rewrite (right_id_L [] (++)). Qed.

Lemma minv_init : minv m_init.
Proof.
  constructor; simpl.
  - intros n q H. by rewrite lookup_empty in H.
  - intros ? ? H. by apply elem_of_nil in H.
  - intros ? ? H. by apply elem_of_nil in H.
  - intros ? ? H. by apply elem_of_nil in H.
  - intros h d H. apply elem_of_list_lookup_2 in H. by apply elem_of_nil in H.
  - intros q (ms & H). apply elem_of_list_lookup_2 in H. by apply elem_of_nil in H.
  - intros h d H. apply elem_of_list_lookup_2 in H. by apply elem_of_nil in H.
Qed.

Lemma reads_snoc s objs names log q h d : h < length (m_handles s) →
  reads (MSt objs names (m_handles s ++ [d]) log) q h = reads s q h.
Proof. intros Hh. unfold reads. cbn [m_handles]. by rewrite lookup_app_l. Qed.
Lemma reads_set s objs names log q h h' d d' : m_handles s !! h = Some d → h_queue d' = h_queue d →
  reads (MSt objs names (<[h := d']> (m_handles s)) log) q h' = reads s q h'.
Proof.
  intros Hd Hq. unfold reads. cbn [m_handles]. destruct (decide (h' = h)) as [->|Hn].
  - rewrite list_lookup_insert by (by eapply lookup_lt_Some). by rewrite Hd, Hq.
  - by rewrite list_lookup_insert_ne.
Qed.

Lemma minv_make s name types : minv s → minv (m_make s name types).
Proof.
  intros I. unfold m_make. destruct (m_names s !! name) as [q|] eqn:En.
  - constructor; cbn [m_objs m_names m_handles m_log].
    + apply I.
    + intros h ms H. rewrite app_length. pose proof (mi_take _ I h ms H). simpl. lia.
    + intros h m H. rewrite app_length. pose proof (mi_del _ I h m H). simpl. lia.
    + apply I.
    + intros h d H. apply lookup_snoc_inv in H as [H|[-> ->]]; [by eapply mi_queue|]. simpl. destruct (mi_names _ I name q En) as (ms & E). by eapply lookup_lt_Some.
    + intros q' H. rewrite (mi_acc _ I q' H). f_equal. apply taken_ext. intros h ms Hin. rewrite reads_snoc; [done|]. by eapply mi_take.
    + intros h d H. apply lookup_snoc_inv in H as [H|[-> ->]]; [by eapply mi_heard|]. simpl.
      rewrite taken_none, delivered_none; [done|..].
      * intros m Hin. apply (mi_del _ I) in Hin. lia.
      * intros h' ms Hin. apply (mi_take _ I) in Hin. apply bool_decide_eq_false. lia.
  - constructor; cbn [m_objs m_names m_handles m_log].
    + intros n q H. apply lookup_insert_Some in H as [[_ <-]|[_ H]].
      * exists []. cbn [m_objs]. by rewrite lookup_app_r, Nat.sub_diag by lia.
      * destruct (mi_names _ I n q H) as (ms & E). exists ms. cbn [m_objs]. by apply lookup_app_l_Some.
    + intros h ms H. rewrite app_length. pose proof (mi_take _ I h ms H). simpl. lia.
    + intros h m H. rewrite app_length. pose proof (mi_del _ I h m H). simpl. lia.
    + intros q m H. rewrite app_length. pose proof (mi_sent _ I q m H). simpl. lia.
    + intros h d H. rewrite app_length. apply lookup_snoc_inv in H as [H|[-> ->]]; [pose proof (mi_queue _ I h d H); lia|]. simpl. lia.
    + intros q (ms & E). cbn [m_objs] in E. apply lookup_snoc_inv in E as [E|[-> E]].
      * assert (Ha : alive s q) by (by exists ms). rewrite (mi_acc _ I q Ha). f_equal.
        -- apply taken_ext. intros h ms' Hin. rewrite reads_snoc; [done|]. by eapply mi_take.
        -- unfold waiting. cbn [m_objs]. by rewrite lookup_app_l by (by eapply lookup_lt_Some).
      * rewrite sent_none, taken_none.
        -- unfold waiting. cbn [m_objs]. by rewrite lookup_app_r, Nat.sub_diag by lia.
        -- intros h ms1 Hin. rewrite reads_snoc by (by eapply mi_take). unfold reads. destruct (m_handles s !! h) as [d|] eqn:Ed; [|done].
           apply bool_decide_eq_false. pose proof (mi_queue _ I h d Ed). lia.
        -- intros m Hin. pose proof (mi_sent _ I _ m Hin). lia.
    + intros h d H. apply lookup_snoc_inv in H as [H|[-> ->]]; [by eapply mi_heard|]. simpl.
      rewrite taken_none, delivered_none; [done|..].
      * intros m Hin. apply (mi_del _ I) in Hin. lia.
      * intros h' ms Hin. apply (mi_take _ I) in Hin. apply bool_decide_eq_false. lia.
Qed.

Lemma minv_send s dst m : minv s → ∃ s', m_send s dst m = Ok s' ∧ minv s'.
Proof.
  intros I. unfold m_send. destruct (m_names s !! dst) as [q|] eqn:En.
  - destruct (mi_names _ I dst q En) as (ms & E). rewrite E. eexists. split; [done|].
    assert (Hq : q < length (m_objs s)) by (by eapply lookup_lt_Some).
    assert (Hal : ∀ q', alive s q' ↔ alive (MSt (<[q:=Some (ms ++ [m])]> (m_objs s)) (m_names s) (m_handles s) (m_log s ++ [ESent q m])) q').
    { intros q'. unfold alive. cbn [m_objs]. destruct (decide (q' = q)) as [->|Hn]; [rewrite list_lookup_insert by done|by rewrite list_lookup_insert_ne].
      split; eauto. }
    constructor; cbn [m_emit m_objs m_names m_handles m_log].
    + intros n q' H. apply Hal. by eapply mi_names.
    + intros h ms' [H|H%elem_of_list_singleton]%elem_of_app; [by eapply mi_take|done].
    + intros h ms' [H|H%elem_of_list_singleton]%elem_of_app; [by eapply mi_del|done].
    + rewrite insert_length. intros q' m' [H|H%elem_of_list_singleton]%elem_of_app; [by eapply mi_sent|by simplify_eq].
    + rewrite insert_length. apply I.
    + intros q' Ha. apply Hal in Ha. rewrite sent_app, taken_app, (mi_acc _ I q' Ha).
      rewrite taken_other by done. rewrite (right_id_L [] (++)).
      rewrite <- (assoc_L (++)). f_equal. unfold waiting. cbn [m_objs]. unfold sent. simpl.
      destruct (decide (q = q')) as [->|Hn]; [by rewrite E, list_lookup_insert|by rewrite list_lookup_insert_ne, (right_id_L [] (++))].
    + intros h d H. rewrite taken_app, delivered_app. simpl. rewrite !(right_id_L [] (++)). by apply I.
  - eexists. split; [done|]. constructor; cbn [m_emit m_objs m_names m_handles m_log]; try apply I.
    + intros h ms' [H|H%elem_of_list_singleton]%elem_of_app; [by eapply mi_take|done].
    + intros h ms' [H|H%elem_of_list_singleton]%elem_of_app; [by eapply mi_del|done].
    + intros q' m' [H|H%elem_of_list_singleton]%elem_of_app; [by eapply mi_sent|done].
    + intros q' Ha. rewrite sent_app, taken_app. simpl. rewrite !(right_id_L [] (++)). by apply I.
    + intros h d H. rewrite taken_app, delivered_app. simpl. rewrite !(right_id_L [] (++)). by apply I.
Qed.

Lemma minv_consume s h s' : minv s → m_consume s h = Ok s' → minv s'.
Proof.
  intros I E. unfold m_consume in E. destruct (m_handles s !! h) as [d|] eqn:Ed; [|done]. simpl in E.
  destruct (m_objs s !! h_queue d) as [[ms|]|] eqn:Eo; [|done..]. destruct (h_flight d) eqn:Ef; [|done]. simplify_eq.
  assert (Hq : h_queue d < length (m_objs s)) by (by eapply lookup_lt_Some). assert (Hh : h < length (m_handles s)) by (by eapply lookup_lt_Some).
  assert (Hal : ∀ q', alive (MSt (<[h_queue d:=Some []]> (m_objs s)) (m_names s) (<[h := Handle (h_queue d) (h_types d) ms]> (m_handles s)) (m_log s ++ [ETake h ms])) q' ↔ alive s q').
  { intros q'. unfold alive. cbn [m_objs]. destruct (decide (q' = h_queue d)) as [->|Hn]; [rewrite list_lookup_insert by done|by rewrite list_lookup_insert_ne].
    split; eauto. }
  unfold m_emit. cbn [m_objs m_names m_handles m_log]. constructor; cbn [m_objs m_names m_handles m_log].
  - intros n q' H. apply Hal. by eapply mi_names.
  - rewrite insert_length. intros h' ms' [H|H%elem_of_list_singleton]%elem_of_app; [by eapply mi_take|by simplify_eq].
  - rewrite insert_length. intros h' ms' [H|H%elem_of_list_singleton]%elem_of_app; [by eapply mi_del|done].
  - rewrite insert_length. intros q' m' [H|H%elem_of_list_singleton]%elem_of_app; [by eapply mi_sent|done].
  - rewrite insert_length. intros h' d' H. apply list_lookup_insert_Some in H as [(-> & <- & _)|[_ H]]; [done|by eapply mi_queue].
  - intros q' Ha. apply Hal in Ha. rewrite sent_app, taken_app, (mi_acc _ I q' Ha).
    replace (sent q' [ETake h ms]) with (@nil msg) by done. rewrite (right_id_L [] (++)).
    rewrite (taken_ext (reads (MSt _ _ _ _) q') (reads s q') (m_log s)) by (intros h' ? ?; by apply (reads_set s _ _ _ _ h h' d)).
    rewrite <- (assoc_L (++)). f_equal. rewrite taken_take.
    rewrite (reads_set s _ _ _ _ h h d) by done. unfold reads, waiting. rewrite Ed. cbn [m_objs].
    destruct (decide (h_queue d = q')) as [<-|Hn].
    + rewrite bool_decide_true by done. rewrite Eo, list_lookup_insert by done. by rewrite (right_id_L [] (++)).
    + rewrite bool_decide_false by done. by rewrite list_lookup_insert_ne.
  - intros h' d' H. rewrite taken_app, delivered_app, heard_app. replace (delivered h' [ETake h ms]) with (@nil msg) by done. rewrite (right_id_L [] (++)).
    apply list_lookup_insert_Some in H as [(-> & <- & _)|[Hn H]]; cbn [h_types h_flight].
    + rewrite (mi_heard _ I h' d Ed), Ef. rewrite taken_take. unfold is_h. rewrite (bool_decide_true (h' = h')) by done.
      replace (heard (h_types d) []) with (@nil msg) by done. by rewrite !(right_id_L [] (++)).
    + rewrite (mi_heard _ I h' d' H). rewrite taken_take. unfold is_h. rewrite (bool_decide_false (h = h')) by done. replace (heard (h_types d') []) with (@nil msg) by done. by rewrite (right_id_L [] (++)).
Qed.

Lemma minv_deliver s h s' : minv s → m_deliver s h = Ok s' → minv s'.
Proof.
  intros I E. unfold m_deliver in E. destruct (m_handles s !! h) as [d|] eqn:Ed; [|done]. simpl in E.
  destruct (h_flight d) as [|m ms] eqn:Ef; [by simplify_eq|]. assert (Hh : h < length (m_handles s)) by (by eapply lookup_lt_Some).
  assert (G : ∀ l, (∀ e, e ∈ l → ∃ m, e = EDeliver h m) → delivered h l = heard (h_types d) [m] → 
    minv (MSt (m_objs s) (m_names s) (<[h := Handle (h_queue d) (h_types d) ms]> (m_handles s)) (m_log s ++ l))).
  { intros l Hl Hd. assert (Hs : ∀ q, sent q l = []) by (intros q; apply sent_none; intros m' Hin; by destruct (Hl _ Hin)).
    assert (Ht : ∀ f, taken_by f l = []) by (intros f; apply taken_none; intros h' ms' Hin; by destruct (Hl _ Hin)).
    constructor; cbn [m_objs m_names m_handles m_log].
    - apply I.
    - rewrite insert_length. intros h' ms' [H|H]%elem_of_app; [by eapply mi_take|by destruct (Hl _ H)].
    - rewrite insert_length. intros h' ms' [H|H]%elem_of_app; [by eapply mi_del|by destruct (Hl _ H); simplify_eq].
    - intros q' m' [H|H]%elem_of_app; [by eapply mi_sent|by destruct (Hl _ H)].
    - intros h' d' H. apply list_lookup_insert_Some in H as [(-> & <- & _)|[_ H]]; [by apply (mi_queue _ I h' d)|by eapply mi_queue].
    - intros q' Ha. rewrite sent_app, taken_app, Hs, Ht, !(right_id_L [] (++)). rewrite (mi_acc _ I q' Ha). f_equal.
      apply taken_ext. intros h' ms' _. symmetry. by apply (reads_set s _ _ _ _ h h' d).
    - intros h' d' H. rewrite taken_app, delivered_app, Ht, (right_id_L [] (++)).
      apply list_lookup_insert_Some in H as [(-> & <- & _)|[Hn H]]; cbn [h_types h_flight].
      + rewrite (mi_heard _ I h' d Ed), Ef, Hd. rewrite <- (assoc_L (++)), <- heard_app. done.
      + rewrite (mi_heard _ I h' d' H). rewrite (delivered_none h' l); [by rewrite (right_id_L [] (++))|].
        intros m' Hin. destruct (Hl _ Hin) as (? & ?). simplify_eq. }
  case_decide as Hty.
  - assert (s' = MSt (m_objs s) (m_names s) (<[h := Handle (h_queue d) (h_types d) ms]> (m_handles s)) (m_log s ++ [EDeliver h m])) as -> by (by simplify_eq).
    apply G; [intros e ->%elem_of_list_singleton; eauto|]. unfold delivered, heard. simpl. rewrite decide_True by done. by rewrite filter_cons_True.
  - assert (s' = MSt (m_objs s) (m_names s) (<[h := Handle (h_queue d) (h_types d) ms]> (m_handles s)) (m_log s ++ [])) as -> by (by simplify_eq; rewrite (right_id_L [] (++))).
    apply G; [by intros e ?%elem_of_nil|]. unfold delivered, heard. simpl. by rewrite filter_cons_False.
Qed.

Lemma minv_clear s : minv s → minv (m_clear s).
Proof.
  intros I. constructor; cbn [m_clear m_objs m_names m_handles m_log]; try apply I.
  - intros n q H. by rewrite lookup_empty in H.
  - rewrite fmap_length. apply I.
  - rewrite fmap_length. apply I.
  - intros q (ms & H). cbn [m_clear m_objs] in H. rewrite list_lookup_fmap in H. by destruct (m_objs s !! q).
Qed.

Lemma minv_step s o s' : minv s → m_step s o = Ok s' → minv s'.
Proof.
  intros I E. destruct o as [n t|dst m|h|h|]; simpl in E.
  - simplify_eq. by apply minv_make.
  - destruct (minv_send s dst m I) as (s1 & E1 & I1). congruence.
  - by eapply minv_consume.
  - by eapply minv_deliver.
  - simplify_eq. by apply minv_clear.
Qed.
Lemma m_run_snoc s ops o : m_run s (ops ++ [o]) = (s' ← m_run s ops; m_step s' o).
Proof. unfold m_run. by rewrite foldl_snoc. Qed.
Lemma m_run_app s ops ops' : m_run s (ops ++ ops') = (s' ← m_run s ops; m_run s' ops').
Proof.
  unfold m_run. rewrite foldl_app. destruct (foldl _ (Ok s) ops) as [s1| | |]; [reflexivity|..].
  all: cbn [mbind res_bind]; induction ops' as [|o l IH]; [done|exact IH].
Qed.
Lemma minv_run_from s ops s' : minv s → m_run s ops = Ok s' → minv s'.
Proof.
  intros I. revert s'. induction ops as [|o ops IH] using rev_ind; intros s' E; [unfold m_run in E; by simplify_eq/=|].
  rewrite m_run_snoc in E. apply bind_ok in E as (s1 & E1 & E2). eapply minv_step; [|done]. by apply IH.
Qed.
Lemma minv_run ops s : m_run m_init ops = Ok s → minv s.
Proof. apply minv_run_from, minv_init. Qed.

(** ** Theorems *)
Lemma m_account ops s : m_run m_init ops = Ok s →
  (∀ q, alive s q → sent q (m_log s) = taken_by (reads s q) (m_log s) ++ waiting s q) ∧
  (∀ h d, m_handles s !! h = Some d →
    heard (h_types d) (taken_by (λ h', bool_decide (h' = h)) (m_log s)) = delivered h (m_log s) ++ heard (h_types d) (h_flight d)).
Proof. intros E. apply minv_run in E. split; apply E. Qed.
Lemma m_sole ops s h d : m_run m_init ops = Ok s → m_handles s !! h = Some d → alive s (h_queue d) → sole s h (h_queue d) →
  heard (h_types d) (sent (h_queue d) (m_log s)) = delivered h (m_log s) ++ heard (h_types d) (h_flight d ++ waiting s (h_queue d)).
Proof.
  intros E Hd Ha Hs. apply minv_run in E. rewrite (mi_acc _ E _ Ha), !heard_app, (assoc_L (++)), <- (mi_heard _ E h d Hd).
  do 2 f_equal. apply taken_ext. intros h' ms _. unfold is_h. specialize (Hs h'). destruct (reads s (h_queue d) h') eqn:Er; symmetry.
  - apply bool_decide_eq_true. by apply Hs.
  - apply bool_decide_eq_false. intros ->. by destruct Hs as [_ Hs]; specialize (Hs eq_refl).
Qed.
(** Logs only grow; a handle keeps its queue and types. *)
Lemma m_grow s o s' : m_step s o = Ok s' → (∃ l, m_log s' = m_log s ++ l) ∧
  (∀ h d, m_handles s !! h = Some d → ∃ d', m_handles s' !! h = Some d' ∧ h_queue d' = h_queue d ∧ h_types d' = h_types d).
Proof.
  intros E. destruct o as [n t|dst m|h|h|]; simpl in E.
  - simplify_eq. unfold m_make. destruct (m_names s !! n); cbn [m_log m_handles]; (split; [exists []; by rewrite (right_id_L [] (++))|]);
      intros h d H; exists d; split_and!; try done; by apply lookup_app_l_Some.
  - unfold m_send in E. destruct (m_names s !! dst) as [q|]; [destruct (m_objs s !! q) as [[]|]; try done|]; simplify_eq; cbn [m_emit m_log m_handles]; (split; [eauto|]);
      intros h d H; by exists d.
  - unfold m_consume in E. destruct (m_handles s !! h) as [d|] eqn:Ed; [|done]. simpl in E.
    destruct (m_objs s !! h_queue d) as [[ms|]|]; [|done..]. destruct (h_flight d); [|done]. simplify_eq. cbn [m_emit m_log m_handles]. split; [eauto|].
    intros h' d' H. destruct (decide (h' = h)) as [->|Hn].
    + rewrite list_lookup_insert by (by eapply lookup_lt_Some). rewrite Ed in H. simplify_eq. eauto.
    + rewrite list_lookup_insert_ne by done. eauto.
  - unfold m_deliver in E. destruct (m_handles s !! h) as [d|] eqn:Ed; [|done]. simpl in E. destruct (h_flight d) as [|m ms].
    + simplify_eq. split; [exists []; by rewrite (right_id_L [] (++))|eauto].
    + simplify_eq. split; [case_decide; [by exists [EDeliver h m]|exists []; by rewrite (right_id_L [] (++))]|].
      intros h' d' H. assert (Hh : ∀ (P : bool), m_handles (if P then m_emit (MSt (m_objs s) (m_names s) (<[h := Handle (h_queue d) (h_types d) ms]> (m_handles s)) (m_log s)) (EDeliver h m) else MSt (m_objs s) (m_names s) (<[h := Handle (h_queue d) (h_types d) ms]> (m_handles s)) (m_log s)) = <[h := Handle (h_queue d) (h_types d) ms]> (m_handles s)) by (by intros []).
      assert (G : ∃ d'0, <[h := Handle (h_queue d) (h_types d) ms]> (m_handles s) !! h' = Some d'0 ∧ h_queue d'0 = h_queue d' ∧ h_types d'0 = h_types d').
      { destruct (decide (h' = h)) as [->|Hn].
        - rewrite list_lookup_insert by (by eapply lookup_lt_Some). rewrite Ed in H. simplify_eq. eauto.
        - rewrite list_lookup_insert_ne by done. eauto. }
      case_decide; done.
  - simplify_eq. split; [exists []; by rewrite (right_id_L [] (++))|eauto].
Qed.
Lemma m_grow_run s ops s' : m_run s ops = Ok s' → (∃ l, m_log s' = m_log s ++ l) ∧
  (∀ h d, m_handles s !! h = Some d → ∃ d', m_handles s' !! h = Some d' ∧ h_queue d' = h_queue d ∧ h_types d' = h_types d).
Proof.
  revert s'. induction ops as [|o ops IH] using rev_ind; intros s' E; [unfold m_run in E; simplify_eq/=; split; [exists []; by rewrite (right_id_L [] (++))|eauto]|].
  rewrite m_run_snoc in E. apply bind_ok in E as (s1 & E1 & E2). destruct (IH s1 E1) as [(l1 & L1) H1]. destruct (m_grow s1 o s' E2) as [(l2 & L2) H2].
  split; [exists (l1 ++ l2); by rewrite L2, L1, (assoc_L (++))|]. intros h d H. destruct (H1 h d H) as (d1 & Hd1 & Q1 & T1).
  destruct (H2 h d1 Hd1) as (d2 & Hd2 & Q2 & T2). exists d2. split_and!; [done|congruence|congruence].
Qed.
(** An update handles everything sent before it. *)
Lemma m_update ops1 ops2 h s1 s2 d : m_run m_init ops1 = Ok s1 → m_run s1 (MConsume h :: ops2) = Ok s2 →
  m_handles s2 !! h = Some d → h_flight d = [] → sole s2 h (h_queue d) →
  heard (h_types d) (sent (h_queue d) (m_log s1)) `prefix_of` delivered h (m_log s2).
Proof.
  intros E1 E2 Hd2 Hf Hs. pose proof (minv_run _ _ E1) as I1.
  change (MConsume h :: ops2) with ([MConsume h] ++ ops2) in E2. rewrite m_run_app in E2. apply bind_ok in E2 as (sc & Ec & E2).
  assert (Ec' : m_consume s1 h = Ok sc) by (unfold m_run in Ec; simpl in Ec; exact Ec). clear Ec.
  pose proof (minv_consume _ _ _ I1 Ec') as Ic. pose proof (minv_run_from _ _ _ Ic E2) as I2.
  destruct (m_grow_run _ _ _ E2) as [(l & L) Hg].
  unfold m_consume in Ec'. destruct (m_handles s1 !! h) as [d1|] eqn:Ed1; [|done]. simpl in Ec'.
  destruct (m_objs s1 !! h_queue d1) as [[ms|]|] eqn:Eo; [|done..]. destruct (h_flight d1) eqn:Ef1; [|done]. simplify_eq.
  assert (Hh : h < length (m_handles s1)) by (by eapply lookup_lt_Some).
  destruct (Hg h (Handle (h_queue d1) (h_types d1) ms)) as (d' & Hd' & Q & T).
  { cbn [m_emit m_handles]. by apply list_lookup_insert. }
  rewrite Hd2 in Hd'. simplify_eq. simpl in Q, T.
  assert (Ha : alive s1 (h_queue d')) by (exists ms; by rewrite Q).
  rewrite (mi_acc _ I1 _ Ha). unfold waiting. rewrite Q, Eo, <- Q.
  pose proof (mi_heard _ I2 h d' Hd2) as H2. rewrite Hf in H2. replace (heard (h_types d') []) with (@nil msg) in H2 by done.
  rewrite (right_id_L [] (++)) in H2. rewrite <- H2, L. cbn [m_emit m_log]. rewrite !taken_app, heard_app.
  assert (Et : taken_by (is_h h) [ETake h ms] = ms). { rewrite taken_take. unfold is_h. by rewrite bool_decide_true. }
  rewrite Et. rewrite (taken_ext (reads s1 (h_queue d')) (is_h h) (m_log s1)).
  - rewrite !heard_app. apply prefix_app_r. done.
  - intros h' ms' Hin. specialize (Hs h'). assert (Hh' : h' < length (m_handles s1)) by (by eapply mi_take).
    destruct (lookup_lt_is_Some_2 _ _ Hh') as (dh & Edh).
    assert (Hr : reads s2 (h_queue d') h' = reads s1 (h_queue d') h').
    { unfold reads. rewrite Edh. assert (Hx : ∃ dx, (<[h := Handle (h_queue d1) (h_types d1) ms]> (m_handles s1)) !! h' = Some dx ∧ h_queue dx = h_queue dh).
      { destruct (decide (h' = h)) as [->|Hn]; [rewrite list_lookup_insert by done|rewrite list_lookup_insert_ne by done; eauto].
        rewrite Ed1 in Edh. simplify_eq. eexists. done. }
      destruct Hx as (dx & Hx & Qx). destruct (Hg h' dx) as (dy & Hy & Qy & _); [done|]. rewrite Hy, Qy, Qx. done. }
    rewrite <- Hr. unfold is_h. destruct (reads s2 (h_queue d') h') eqn:Er; symmetry.
    + apply bool_decide_eq_true. by apply Hs.
    + apply bool_decide_eq_false. intros ->. by destruct Hs as [_ Hs]; specialize (Hs eq_refl).
Qed.
(** Nothing goes wrong while the queue lives. *)
Lemma m_progress ops s o : m_run m_init ops = Ok s →
  match o with
  | MConsume h => ∃ d, m_handles s !! h = Some d ∧ h_flight d = [] ∧ alive s (h_queue d)
  | MDeliver h => ∃ d, m_handles s !! h = Some d
  | _ => True
  end → ∃ s', m_step s o = Ok s'.
Proof.
  intros E H. pose proof (minv_run _ _ E) as I. destruct o as [n t|dst m|h|h|]; simpl; [eauto| |..|eauto].
  - destruct (minv_send s dst m I) as (s' & ? & _). eauto.
  - destruct H as (d & Hd & Hf & (ms & Ha)). unfold m_consume. rewrite Hd. simpl. rewrite Ha, Hf. eauto.
  - destruct H as (d & Hd). unfold m_deliver. rewrite Hd. simpl. destruct (h_flight d); eauto.
Qed.

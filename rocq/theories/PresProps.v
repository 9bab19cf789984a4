(** Properties of the presentation: C92, C93. *)
From Verif Require Import Outcome BoxModel GeoModel RotSpec RotProofs PresModel PresSpec PresProofs PresProofs2 PresProofs3.
From Coq Require Import Reals Lra Psatz.
Local Open Scope R_scope.

(** ** C92: the delay of the presentation *)
Theorem C92_bounds dt t0 os : 0 < dt → sane t0 t0 os →
  0 <= p_delay (prun dt (pst0 t0) os) < 9 / 8 + dt.
Proof. intros Hdt Ho. apply (run_okst dt os (pst0 t0) Hdt (okst_init dt t0 Hdt) Ho). Qed.
Print Assumptions C92_bounds.
Theorem C92_samples dt t0 os :
  let obs := observed t0 false false [] os in
  p_samples (prun dt (pst0 t0) os) = drop (length obs) (replicate 48 0 ++ obs).
Proof. exact (run_samples dt os (pst0 t0) [] eq_refl). Qed.
Print Assumptions C92_samples.
(** An update with news moves the delay towards a multiple of the time step that
    covers what was observed. *)
Theorem C92_update dt s now : 0 < dt → p_last s <= now → p_paused s = false → p_due s = true →
  let s' := (papply dt s (Update now)).1 in
  ∃ T, mean (p_samples s') + spread (p_samples s') <= T < mean (p_samples s') + spread (p_samples s') + dt ∧
    multiple T dt ∧ amid (p_delay s) (p_delay s') T ∧
    (p_adjusting s' = false → p_delay s' = T ∨ (p_delay s' = p_delay s ∧ Rabs (T - p_delay s) <= dt)) ∧
    (p_adjusting s = true ∨ dt < Rabs (T - p_delay s) → p_delay s' = T ∨
      T - p_delay s' = (1 - Rmin ((if rltb (p_delay s) T then 5 else 2) * Rmin (now - p_last s) 1) 1) * (T - p_delay s)).
Proof.
  intros Hdt Hn Hp Hd s'. unfold s'. simpl. rewrite Hp, Hd. simpl.
  set (l := push_sample _ _). destruct (target_spec l dt Hdt) as [H1 H2]. exists (target_delay l dt).
  destruct (adjust_spec (target_delay l dt) (p_delay s) (p_adjusting s) (Rmin (now - p_last s) 1) dt) as (A & B & _ & C);
    [apply rmin_unit; lra|]. split_and!; try done; try lra.
  intros E. destruct (B E) as [?|(? & _ & ?)]; [by left|by right].
Qed.
Print Assumptions C92_update.
(** Without news, or in the pause, the delay stays; changes of the pause clear it. *)
Theorem C92_still dt s now b : 
  (p_paused s = true ∨ p_due s = false → p_delay (papply dt s (Update now)).1 = p_delay s) ∧
  (p_paused s = true ↔ (papply dt s (Update now)).2 = Some None) ∧
  p_delay (papply dt s (SetPaused b)).1 = 0.
Proof.
  simpl. split_and!; [|split|done].
  - intros [->| ->]; [done|]. by destruct (p_paused s).
  - by intros ->.
  - by destruct (p_paused s).
Qed.
Print Assumptions C92_still.
(** A steady target is reached exactly. *)
Theorem C92_reaches T dt d e : 0 < dt → 0 < e →
  ∃ n, ∀ els, (n <= length els)%nat → Forall (λ el, e <= el) els →
    (foldl (λ r el, adjust T r.1 r.2 el dt) (d, true) els) = (T, false).
Proof.
  intros Hdt He. destruct (adjusts_reach T dt d e Hdt He) as [n H]. exists n. intros els H1 H2.
  destruct (H els H1 H2) as [A B]. change (foldl _ _ _) with (adjusts T dt els d true).
  destruct (adjusts T dt els d true). simpl in *. congruence.
Qed.
Print Assumptions C92_reaches.

Lemma steps_run dt ts s : let s' := prun dt s (map Stepped ts) in
  p_delay s' = p_delay s ∧ p_last s' = p_last s ∧ p_paused s' = p_paused s ∧ p_samples s' = p_samples s ∧
  (∀ os, sane (p_last s) (p_sim s) (map Stepped ts ++ os) → p_sim s <= p_sim s' ∧ sane (p_last s) (p_sim s') os).
Proof.
  revert s. induction ts as [|t ts IH]; intros s; simpl; [split_and!; try done; intros; split; [lra|done]|].
  destruct (IH (papply dt s (Stepped t)).1) as (A & B & C & D & E). simpl in A, B, C, D, E.
  change (prun dt s (Stepped t :: map Stepped ts)) with (prun dt (papply dt s (Stepped t)).1 (map Stepped ts)).
  split_and!; try done. intros os (H1 & H2). destruct (E os H2). split; [lra|done].
Qed.
Lemma rmin_shift a b c d e : a <= c + e → b <= d + e → Rmin a b <= Rmin c d + e.
Proof. intros. unfold Rmin. destruct Rle_dec, Rle_dec; lra. Qed.
Lemma interp_instant sim now d dt : sim + interpolation_dt sim now d dt = Rmin (now - d) (sim + dt).
Proof. unfold interpolation_dt, Rmin. destruct Rle_dec, Rle_dec; lra. Qed.
(** The presented instant is never ahead of the clock minus the delay nor more
    than a time step ahead of the simulation, and from one update to the next it
    goes back by no more than ten microseconds, as long as the delay that is
    needed is not more than a fifth of a second longer than the delay. *)
Theorem C92_instant dt s now i : (papply dt s (Update now)).2 = Some (Some i) →
  let s' := (papply dt s (Update now)).1 in
  instant s' i = Rmin (now - p_delay s') (p_sim s' + dt).
Proof.
  simpl. destruct (p_paused s); [done|]. intros [= <-]. apply interp_instant.
Qed.
Print Assumptions C92_instant.
Theorem C92_forward dt s now1 i1 ts now2 i2 :
  let s1 := (papply dt s (Update now1)).1 in
  let s2 := prun dt s1 (map Stepped ts) in
  let s3 := (papply dt s2 (Update now2)).1 in
  0 < dt → sane now1 (p_sim s1) (map Stepped ts ++ [Update now2]) →
  (papply dt s (Update now1)).2 = Some (Some i1) → (papply dt s2 (Update now2)).2 = Some (Some i2) →
  mean (p_samples s3) + spread (p_samples s3) + dt <= p_delay s1 + 1 / 5 →
  instant s1 i1 <= instant s3 i2 + 1 / 100000.
Proof.
  intros s1 s2 s3 Hdt Hsane H1 H2 HT.
  pose proof (C92_instant dt s now1 i1 H1) as I1. pose proof (C92_instant dt s2 now2 i2 H2) as I2.
  cbv zeta in I1, I2. fold s1 in I1. fold s3 in I2. rewrite I1, I2.
  destruct (steps_run dt ts s1) as (D & L & P & _ & E). fold s2 in D, L, P, E.
  assert (L1 : p_last s1 = now1) by done. rewrite L1 in L, E. destruct (E _ Hsane) as [Hs Hn]. simpl in Hn. destruct Hn as (Hn & _).
  assert (S3 : p_sim s3 = p_sim s2) by (unfold s3; simpl; destruct (p_paused s2), (p_due s2); done).
  assert (G : p_delay s3 - p_delay s1 <= now2 - now1 + 1 / 100000).
  { rewrite <- D in HT |- *. unfold s3 in HT |- *. simpl in HT |- *. destruct (p_paused s2); [simpl; lra|].
    destruct (p_due s2); [|simpl; lra]. simpl in HT |- *. set (l := push_sample _ _) in *.
    destruct (target_spec l dt Hdt) as [[T1 T2] _].
    pose proof (adjust_growth (target_delay l dt) (p_delay s2) (p_adjusting s2) (Rmin (now2 - p_last s2) 1) dt) as G.
    rewrite L in G |- *. 
    assert (R : 0 <= Rmin (now2 - now1) 1 <= now2 - now1) by (unfold Rmin; destruct Rle_dec; lra).
    specialize (G ltac:(lra) ltac:(lra)). lra. }
  apply rmin_shift; [lra|]. rewrite S3. lra.
Qed.
Print Assumptions C92_forward.

Ltac samples_lra := unfold average, deviation, sum; simpl; unfold average, sum; simpl; lra.
Lemma level_ex : target_delay (replicate 47 0 ++ [1 / 10]) (1 / 4) = 1 / 4.
Proof.
  unfold target_delay. rewrite average_mean, deviation_spread.
  assert (Em : mean (replicate 47 0 ++ [1 / 10]) = 1 / 480).
  { unfold mean. change (length _) with 48%nat. cbn [replicate fold_right app].
    replace (INR 48) with 48 by (simpl; lra). lra. }
  assert (Es : spread (replicate 47 0 ++ [1 / 10]) = 47 / 11520).
  { unfold spread. rewrite Em. unfold mean. rewrite map_length. change (length _) with 48%nat.
    rewrite map_app. assert (∀ n f, map f (replicate n 0) = replicate n (f 0 : R)) as ->.
    { induction n as [|n IH]; intros f; [done|]. simpl. by rewrite IH. }
    replace (Rabs (0 - 1 / 480)) with (1 / 480) by (rewrite Rabs_left; lra).
    cbn [map]. replace (Rabs (1 / 10 - 1 / 480)) with (47 / 480) by (rewrite Rabs_pos_eq; lra).
    cbn [replicate fold_right app]. replace (INR 48) with 48 by (simpl; lra). lra. }
  rewrite Em, Es. rewrite (rceil_is _ 1); lra.
Qed.
(** When a much longer delay is needed, what is presented goes back in time. *)
Theorem C92_refuted_back : ∃ dt s now1 i1 ts now2 i2,
  let s1 := (papply dt s (Update now1)).1 in
  let s2 := prun dt s1 (map Stepped ts) in
  let s3 := (papply dt s2 (Update now2)).1 in
  0 < dt ∧ s = pst0 0 ∧ sane 0 0 (Update now1 :: map Stepped ts ++ [Update now2]) ∧
  (papply dt s (Update now1)).2 = Some (Some i1) ∧ (papply dt s2 (Update now2)).2 = Some (Some i2) ∧
  instant s3 i2 < instant s1 i1 - 1 / 100.
Proof.
  exists (1 / 4), (pst0 0), 0, 0, [0], (1 / 10), (-1 / 40). simpl.
  change (replicate 47 0 ++ [Rmin (1 / 10 - 0) 1]) with (replicate 47 0 ++ [Rmin (1 / 10 - 0) 1]).
  assert (M : Rmin (1 / 10 - 0) 1 = 1 / 10) by (rewrite Rmin_left; lra). rewrite M.
  change [0; 0; 0; 0; 0; 0; 0; 0; 0; 0; 0; 0; 0; 0; 0; 0; 0; 0; 0; 0; 0; 0; 0; 0; 0; 0; 0; 0; 0; 0; 0; 0; 0; 0; 0; 0; 0; 0; 0;
    0; 0; 0; 0; 0; 0; 0; 0; 1 / 10] with (replicate 47 0 ++ [1 / 10]).
  rewrite level_ex.
  assert (A : adjust (1 / 4) 0 true (1 / 10) (1 / 4) = (1 / 8, true)).
  { unfold adjust. cbn [orb]. rewrite (proj2 (rltb_true 0 (1 / 4 - 0))) by lra.
    rewrite (Rmin_left (5 * (1 / 10)) 1) by lra.
    rewrite (Rabs_pos_eq (1 / 4 - (0 + (1 / 4 - 0) * (5 * (1 / 10))))) by lra.
    rewrite (proj2 (rltb_false _ _)) by lra. f_equal. lra. }
  rewrite A. simpl. unfold interpolation_dt, instant. simpl.
  split_and!; try lra; try done.
  - do 2 f_equal. rewrite Rmin_left; lra.
  - do 2 f_equal. rewrite Rmin_left; lra.
Qed.
Print Assumptions C92_refuted_back.

Example ex92 : sane 0 0 [Stepped 0; Update (1 / 10); SetPaused true; Update (2 / 10); SetPaused false; Stepped (2 / 10); Update (3 / 10)] ∧
  observed 0 false false [] [Stepped 0; Update (1 / 10); SetPaused true; Update (2 / 10); SetPaused false; Stepped (2 / 10); Update (3 / 10)] =
    [Rmin (3 / 10 - 2 / 10) 1].
Proof. simpl. split; [lra|done]. Qed.

(** ** C93: presented transforms *)
Theorem C93_shown client dt idt b : b_procedural b = true → b_sleeping b = false → b_disabled b = false →
  qlsq (b_orn b) = 1 → unit_offset (b_dis b) → unit_offset (b_acc b) → Rabs idt <= 1 →
  (∀ rate, client = Some rate → 0 <= rate * dt) →
  ∃ b' a, update_presentation client dt idt b = Ok b' ∧ same_state b b' ∧
    unit_offset (b_dis b') ∧ unit_offset (b_acc b') ∧
    b_ppos b' = ((b_pos b + idt * b_linvel b) + (remaining b').1)%V ∧ qlsq (b_porn b') = 1 ∧
    Rabs (a - len (b_angvel b) * idt) <= (len (b_angvel b) * Rabs idt) ^ 5 / 1000 ∧
    (/ 1000 <= len (b_angvel b) → a = len (b_angvel b) * idt) ∧
    ∀ n v, dot3 n n = 1 → b_angvel b = (len (b_angvel b) * n)%V →
      rotate (b_porn b') v = rotate (remaining b').2 (turn n a (rotate (b_orn b) v)).
Proof. exact (present_ok client dt idt b). Qed.
Print Assumptions C93_shown.
Theorem C93_fades rate dt idt b b' d a : unit_offset (b_dis b) → unit_offset (b_acc b) → 0 <= rate * dt →
  b_sleeping b = false → b_dis b = Some d → b_acc b = Some a →
  update_presentation (Some rate) dt idt b = Ok b' →
  let k := Rmin (rate * dt) 1 in
  ∃ d', b_dis b' = Some d' ∧ (∀ a', b_acc b' = Some a' → a' = (vec0, qid)) ∧
    (lsq (d.1 + a.1)%V <= 1 / 10000 → d'.1 = vec0) ∧
    (1 / 10000 < lsq (d.1 + a.1)%V → d'.1 = ((1 - k) * (d.1 + a.1))%V) ∧
    fades k (qmul d.2 a.2) d'.2.
Proof.
  intros Hd Ha Hr Hs Ed Ea H k. destruct (present_offsets rate dt idt b b' Hd Ha Hr H) as (_ & _ & _ & _ & T).
  destruct (T ((d.1 + a.1)%V, qmul d.2 a.2)) as (d' & D1 & A1 & D2).
  { exists d. split; [done|]. by rewrite Ea. }
  rewrite Hs in D2. destruct D2 as [D2 D3]. simpl in D2, D3. exists d'. split_and!; try done.
  - intros L. rewrite D2. unfold decay_pos. by rewrite (proj2 (rltb_false _ _)) by lra.
  - intros L. rewrite D2. unfold decay_pos. rewrite (proj2 (rltb_true _ _)) by lra.
    apply v3_eq; unfold sub3, scl, k; simpl; ring.
  - destruct (decay_orn_ok rate dt (qmul d.2 a.2)) as (r & E & _ & F & _).
    { rewrite qlsq_mul, (Hd d Ed), (Ha a Ea). ring. }
    rewrite D3 in E. injection E as ->. done.
Qed.
Print Assumptions C93_fades.
Theorem C93_gone rate c b d : 0 < c → b_sleeping b = false → (∀ a, b_acc b = Some a → a = (vec0, qid)) →
  b_dis b = Some d → qlsq d.2 = 1 →
  ∃ n, ∀ l b', (n <= length l)%nat → Forall (λ x, c <= rate * x.1) l → updates rate l b = Ok b' →
    b_dis b' = Some (vec0, qid).
Proof. exact (updates_gone rate c b d). Qed.
Print Assumptions C93_gone.
(** A correction of the simulated transform does not show at once. *)
Theorem C93_hidden p q b : qlsq q = 1 → b_sleeping b = false → b_disabled b = false →
  unfaded (jump p q b) = unfaded b ∧ b_pos (jump p q b) = p ∧ b_orn (jump p q b) = q.
Proof. intros U Hs Hx. split; [by apply jump_unfaded|done]. Qed.
Print Assumptions C93_hidden.
Theorem C93_snap b : b_ppos (snap_presentation b) = b_pos b ∧ b_porn (snap_presentation b) = b_orn b.
Proof. done. Qed.
Print Assumptions C93_snap.
(** Bodies that do not move by themselves are shown as before, without offsets. *)
Theorem C93_rest client dt idt b : b_dis b = None →
  b_procedural b = false ∨ b_sleeping b = true ∨ b_disabled b = true →
  update_presentation client dt idt b = Ok b.
Proof.
  intros Hd Hb. unfold update_presentation.
  assert (E : (match client with Some rate => update_discontinuities rate dt b | None => Ok b end) = Ok b).
  { destruct client; [|done]. unfold update_discontinuities, transfer. rewrite Hd. simpl. unfold decay. rewrite Hd. simpl.
    unfold calm. by rewrite Hd. }
  rewrite E. simpl. unfold extrapolate.
  replace (b_procedural b && negb (b_sleeping b) && negb (b_disabled b)) with false
    by (destruct Hb as [->|[->| ->]]; [done|by rewrite andb_false_r|by rewrite !andb_false_r]).
  simpl. unfold show_offset. by rewrite Hd.
Qed.
Print Assumptions C93_rest.

Definition off1 : offset := (ex, qid).
Definition still (d : option offset) (proc : bool) : body :=
  Body vec0 qid vec0 vec0 vec0 qid proc false false d (Some no_offset).
Lemma off1_unit : unit_offset (Some off1).
Proof. intros d [= <-]. apply qid_unit. Qed.
Lemma no_unit : unit_offset (Some no_offset).
Proof. intros d [= <-]. apply qid_unit. Qed.
Lemma lsq_ex : lsq (ex + vec0)%V = 1.
Proof. unfold lsq, dot3, ex, vec0, add3. simpl. ring. Qed.
(** A body that falls asleep while an offset is shown stays displaced. *)
Theorem C93_refuted_asleep : ∃ b dt idt b', update_presentation (Some 6) dt idt b = Ok b' ∧ b_sleeping b = false ∧
  ∀ l, Forall (λ x, 0 <= x.1) l → ∃ b2, updates 6 l (fall_asleep b') = Ok b2 ∧ shown_gap b2 = ex.
Proof.
  destruct (C93_shown (Some 6) 0 0 (still (Some off1) true)) as (b' & a & E & S & U & V & P & _); try done.
  { apply qid_unit. } { apply off1_unit. } { apply no_unit. } { rewrite Rabs_R0. lra. } { intros rate [= <-]. lra. }
  exists (still (Some off1) true), 0, 0, b'. split_and!; [done..|].
  destruct (C93_fades 6 0 0 (still (Some off1) true) b' off1 no_offset off1_unit no_unit ltac:(lra) eq_refl eq_refl eq_refl E) as (d' & D1 & _ & _ & D2 & _).
  simpl in D2. rewrite lsq_ex in D2. specialize (D2 ltac:(lra)).
  intros l Hl.
  destruct (asleep_updates 6 l (fall_asleep b')) as (b2 & E2 & P2 & Q2).
  { done. } { done. } { done. } { eapply Forall_impl; [exact Hl|]. simpl. intros. lra. }
  exists b2. split; [done|]. unfold shown_gap. rewrite P2, Q2. simpl. rewrite P. destruct S as (S & _). rewrite S.
  unfold remaining. rewrite D1. simpl. rewrite D2. rewrite Rmin_left by lra.
  apply v3_eq; unfold add3, sub3, scl, ex, vec0; simpl; ring.
Qed.
Print Assumptions C93_refuted_asleep.
(** The offset of a body that is not procedural is added at each update. *)
Theorem C93_refuted_drift : ∃ b dt idt b1 b2,
  update_presentation (Some 6) dt idt b = Ok b1 ∧ update_presentation (Some 6) dt idt b1 = Ok b2 ∧
  b_procedural b = false ∧ same_state b b1 ∧ same_state b b2 ∧
  shown_gap b1 = ex ∧ shown_gap b2 = (2 * ex)%V.
Proof.
  set (shown := λ n : R, Body vec0 qid vec0 vec0 (n * ex)%V qid false false false (Some off1) (Some no_offset)).
  assert (H : ∀ n, update_presentation (Some 6) 0 0 (shown n) = Ok (shown (n + 1))).
  { intros n. unfold update_presentation, update_discontinuities, transfer. simpl.
    assert (Eq : qmul qid qid = qid) by (apply q_eq; unfold qmul, qid; simpl; ring).
    rewrite Eq. rewrite RotProofs4.qnorm_unit by apply qid_unit. simpl. unfold decay. simpl.
    unfold decay_orn. rewrite (proj2 (rltb_false (Rabs (qw qid)) (9999 / 10000))) by (simpl; rewrite Rabs_R1; lra). simpl.
    unfold with_dis, with_present, shown. simpl. f_equal.
    assert (Ep : decay_pos 6 0 (ex + vec0)%V = ex).
    { unfold decay_pos. rewrite lsq_ex, (proj2 (rltb_true _ _)) by lra. rewrite Rmin_left by lra.
      apply v3_eq; unfold add3, sub3, scl, ex, vec0; simpl; ring. }
    unfold calm, with_dis, show_offset, with_present. simpl. rewrite Ep, Eq. f_equal.
    apply v3_eq; unfold add3, scl, ex; simpl; ring. }
  exists (shown 0), 0, 0, (shown (0 + 1)), (shown (0 + 1 + 1)). split_and!; try done; try apply H;
    unfold shown_gap, shown; simpl; apply v3_eq; unfold sub3, scl, ex, vec0; simpl; ring.
Qed.
Print Assumptions C93_refuted_drift.

Example ex93 : qlsq (b_orn (still (Some off1) true)) = 1 ∧ unit_offset (b_dis (still (Some off1) true)) ∧
  unit_offset (b_acc (still (Some off1) true)) ∧ 1 / 10000 < lsq (ex + vec0)%V.
Proof. split_and!; [apply qid_unit|apply off1_unit|apply no_unit|rewrite lsq_ex; lra]. Qed.
Example ex93_gone : ∃ l, (100 <= length l)%nat ∧ Forall (λ x : R * R, 6 / 60 <= 6 * x.1) l ∧
  ∃ b', updates 6 l (still (Some off1) false) = Ok b'.
Proof.
  exists (replicate 100 (1 / 60, 0)). split_and!; [rewrite replicate_length; lia|apply Forall_replicate; simpl; lra|].
  generalize 100%nat. intros n.
  assert (H : ∀ b, unit_offset (b_dis b) → unit_offset (b_acc b) → b_procedural b = false →
    ∃ b', updates 6 (replicate n (1 / 60, 0)) b = Ok b').
  { induction n as [|n IH]; intros b Hd Ha Hp; [by exists b|]. simpl.
    assert (∃ b1, update_presentation (Some 6) (1 / 60) 0 b = Ok b1) as (b1 & E).
    { unfold update_presentation. destruct (discontinuities_ok 6 (1 / 60) b Hd Ha ltac:(lra)) as (b1 & E & S & _).
      rewrite E. simpl. unfold extrapolate. destruct S as (_ & _ & _ & _ & S & _). rewrite S, Hp. simpl. by eexists. }
    rewrite E. simpl. destruct (present_offsets 6 (1 / 60) 0 b b1 Hd Ha ltac:(lra) E) as (S & U & V & _).
    apply IH; try done. destruct S as (_ & _ & _ & _ & S & _). by rewrite S. }
  apply H; [apply off1_unit|apply no_unit|done].
Qed.

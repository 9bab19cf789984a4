(** Proofs about parallel tasks. *)
From Verif Require Import Outcome TaskModel TaskSpec.

Notation sum := sum_list_with.

Lemma sum_insert {A} (f : A → nat) (l : list A) i x y : l !! i = Some x → sum f (<[i := y]> l) + f x = sum f l + f y.
Proof.
  revert i. induction l as [|z l IH]; intros [|i] H; simplify_eq/=; [lia|]. specialize (IH i H). lia.
Qed.
Lemma sum_in {A} (f : A → nat) (l : list A) i x : l !! i = Some x → f x ≤ sum f l.
Proof. intros H. apply sum_list_with_in. by eapply elem_of_list_lookup_2. Qed.
Lemma sum_zero {A} (f : A → nat) (l : list A) : sum f l = 0 ↔ ∀ x, x ∈ l → f x = 0.
Proof.
  induction l as [|y l IH]; simpl; [split; [by intros _ ? ?%elem_of_nil|done]|]. split.
  - intros H x [->|Hx]%elem_of_cons; [lia|]. apply IH; [lia|done].
  - intros H. assert (f y = 0) by (apply H; by left). assert (sum f l = 0); [|lia]. apply IH. intros x Hx. apply H. by right.
Qed.
Lemma sum_pos {A} (f : A → nat) (l : list A) : 0 < sum f l → ∃ i x, l !! i = Some x ∧ 0 < f x.
Proof.
  induction l as [|y l IH]; simpl; [lia|]. destruct (f y) as [|k] eqn:E.
  - intros H. destruct IH as (i & x & Hi & Hx); [lia|]. by exists (S i), x.
  - intros _. exists 0, y. split; [done|lia].
Qed.
Lemma sum_rep {A} (f : A → nat) n x : sum f (replicate n x) = n * f x.
Proof. induction n as [|n IH]; simpl; lia. Qed.
Lemma elem_insert {A} (l : list A) i x y : x ∈ <[i := y]> l → x = y ∨ x ∈ l.
Proof.
  intros (j & Hj)%elem_of_list_lookup. apply list_lookup_insert_Some in Hj as [(_ & -> & _)|[_ Hj]]; [by left|right].
  by eapply elem_of_list_lookup_2.
Qed.

Definition b2n (P : Prop) `{Decision P} : nat := if decide P then 1 else 0.

Lemma after_snoc size v w l : after_all_work size v l →
  (w = v → ∀ i, i < size → finished i l = 1) → after_all_work size v (l ++ [w]).
Proof.
  intros H Hw l1 l2 E. destruct l2 as [|z l2] using rev_ind.
  - apply app_inj_tail in E as [<- ->]. by apply Hw.
  - clear IHl2. change (v :: l2 ++ [z]) with ((v :: l2) ++ [z]) in E. rewrite (assoc_L (++)) in E.
    apply app_inj_tail in E as [E _]. by eapply H.
Qed.

Section async.
Context (size chunk : nat).

Definition jlen (j : jst) : nat := match j with JRun b e => e - b | JCount p => p | _ => 0 end.
Definition jin (i : nat) (j : jst) : nat := match j with JRun b e => b2n (b ≤ i < e) | _ => 0 end.
Definition jref (j : jst) : nat := match j with JDelete | JDone => 0 | _ => 1 end.
Definition jcmp (j : jst) : nat := match j with JComplete => 1 | _ => 0 end.
Definition jdel (j : jst) : nat := match j with JDelete => 1 | _ => 0 end.
Definition jpast (j : jst) : Prop := match j with JComplete | JRef | JDelete | JDone => True | _ => False end.

Record ainv (s : actx) : Prop := {
  ai_len : min (a_cur s) size = a_comp s + sum jlen (a_jobs s);
  ai_start i : i < size → started i (a_log s) = b2n (i < a_cur s);
  ai_fin i : started i (a_log s) = finished i (a_log s) + sum (jin i) (a_jobs s);
  ai_rng : ranges_ok size chunk (a_log s);
  ai_run b e : JRun b e ∈ a_jobs s → b < e ∧ e ≤ size;
  ai_cnt p : JCount p ∈ a_jobs s → 0 < p;
  ai_cmp : completions (a_log s) + sum jcmp (a_jobs s) = b2n (a_comp s = size);
  ai_ref : a_ref s = sum jref (a_jobs s);
  ai_del : releases (a_log s) + sum jdel (a_jobs s) = b2n (a_ref s = 0);
  ai_freed : releases (a_log s) = b2n (a_freed s = true);
  ai_past j : j ∈ a_jobs s → jpast j → size ≤ a_cur s;
  ai_after : after_all_work size Complete (a_log s);
  ai_last l1 l2 : a_log s = l1 ++ Release :: l2 → l2 = [] ∧ completions l1 = 1 ∧ ∀ i, i < size → finished i l1 = 1;
}.

Lemma ainv_init n : 0 < n → 0 < size → ainv (async_init n).
Proof.
  intros Hn Hs. unfold async_init. constructor; simpl; rewrite ?sum_rep; simpl; try lia; try done.
  - intros i. rewrite sum_rep. simpl. lia.
  - intros b e H. by apply elem_of_nil in H.
  - intros b e (H & _)%elem_of_replicate. done.
  - intros p (H & _)%elem_of_replicate. done.
  - unfold b2n. rewrite decide_False by lia. lia.
  - unfold b2n. rewrite decide_False by lia. lia.
  - intros j (-> & _)%elem_of_replicate. done.
  - intros l1 l2 H. by destruct l1.
  - intros l1 l2 H. by destruct l1.
Qed.

Lemma last_snoc s v l1 l2 : releases (a_log s) = 0 → a_log s ++ [v] = l1 ++ Release :: l2 → l2 = [] ∧ l1 = a_log s ∧ v = Release.
Proof.
  intros Hr E. destruct l2 as [|z l2 _] using rev_ind.
  - apply app_inj_tail in E as [-> ->]. done.
  - change (Release :: l2 ++ [z]) with ((Release :: l2) ++ [z]) in E. rewrite (assoc_L (++)) in E.
    apply app_inj_tail in E as [E _]. exfalso. rewrite E in Hr. unfold releases in Hr. rewrite sum_list_with_app in Hr. simpl in Hr. lia.
Qed.

(** Work left; every step of a busy job reduces it. *)
Definition jw (j : jst) : nat :=
  match j with JRun _ _ => 7 | JCount _ => 6 | JFetch => 5 | JComplete => 4 | JRef => 3 | JDelete => 1 | JDone => 0 end.
Definition ameasure (s : actx) : nat := 3 * (size - a_cur s) + sum jw (a_jobs s).

Ltac sums H :=
  repeat match goal with
  | |- context [sum ?f (<[?i := ?y]> ?l)] =>
    let E := fresh "E" in pose proof (sum_insert f l i _ y H) as E; generalize dependent (sum f (<[i := y]> l)); intros
  end.
Ltac logs := unfold started, finished, completions, releases in *; rewrite ?sum_list_with_app in *; simpl in *.

Lemma a_step_inv s i : 0 < chunk → 0 < size → ainv s →
  ∃ s', a_step size chunk s i = Ok s' ∧ ainv s' ∧
    (∀ j, a_jobs s !! i = Some j → j ≠ JDone → ameasure s' < ameasure s) ∧ length (a_jobs s') = length (a_jobs s).
Proof.
  intros Hc Hs I. unfold a_step. destruct (a_jobs s !! i) as [j|] eqn:Ej.
  2:{ exists s. done. }
  assert (Hin : j ∈ a_jobs s) by (by eapply elem_of_list_lookup_2).
  assert (Hdd : j = JDone ∨ j ≠ JDone) by (destruct j; (by left) || (by right)). destruct Hdd as [->|Hnd].
  { exists s. split_and!; try done. intros ? [= <-]. done. }
  (* not freed *)
  assert (Hnf : a_freed s = false).
  { destruct (a_freed s) eqn:E; [|done]. exfalso. pose proof (ai_freed _ I) as H1. pose proof (ai_del _ I) as H2. pose proof (ai_ref _ I) as H3.
    rewrite E in H1. unfold b2n in H1. rewrite decide_True in H1 by done. rewrite H1 in H2. unfold b2n in H2.
    destruct (decide (a_ref s = 0)) as [H0|]; [|lia]. rewrite H0 in H3. symmetry in H3.
    assert (sum jdel (a_jobs s) = 0) as H4 by lia. rewrite sum_zero in H3, H4. specialize (H3 j Hin). specialize (H4 j Hin). by destruct j. }
  assert (Hrel : releases (a_log s) = 0) by (rewrite (ai_freed _ I), Hnf; done).
  assert (Hl1 : length (a_jobs s) ≠ 0) by (intros E; destruct (a_jobs s); [by apply elem_of_nil in Hin|done]).
  destruct I as [I1 I2 I3 I4 I5 I6 I7 I8 I9 I10 I11 I12 I13]. destruct s as [cur comp ref freed js log]. simpl in *. subst freed.
  assert (Hre : require_ (negb false) = Ok tt) by done.
  destruct j as [|b e|p| | | |]; [..|done]; rewrite Hre; cbn [mbind res_bind].
  - (* fetch *)
    destruct (decide (min (cur + chunk) size ≤ cur)) as [He|He].
    + assert (size ≤ cur) by lia. eexists. split; [done|]. split_and!; [constructor; simpl|..]; sums Ej; simpl in *.
      * lia.
      * intros k Hk. rewrite I2 by done. unfold b2n. rewrite !decide_True by lia. done.
      * intros k. specialize (I3 k). sums Ej; simpl in *. lia.
      * done.
      * intros b e H0. apply elem_insert in H0 as [?|H0]; [done|]. by apply I5.
      * intros q H0. apply elem_insert in H0 as [?|H0]; [done|]. by apply I6.
      * lia.
      * lia.
      * unfold b2n in *. repeat case_decide; lia.
      * done.
      * intros j Hj Hp. lia.
      * done.
      * intros l1 l2 E'. rewrite E' in Hrel. unfold releases in Hrel. rewrite sum_list_with_app in Hrel. simpl in Hrel. lia.
      * intros j [= <-] _. unfold ameasure. simpl. sums Ej; simpl in *. lia.
      * by rewrite insert_length.
    + assert (cur < size) by lia. set (e := min (cur + chunk) size) in *. eexists. split; [done|].
      split_and!; [constructor; simpl|..]; sums Ej; simpl in *.
      * lia.
      * intros k Hk. logs. rewrite I2 by done. unfold b2n. repeat case_decide; lia.
      * intros k. specialize (I3 k). sums Ej; logs. unfold b2n in *. repeat case_decide; lia.
      * intros b' e' H0. apply elem_of_app in H0 as [H0|H0]; [by apply I4|]. apply elem_of_list_singleton in H0 as [= -> ->]. lia.
      * intros b' e' H0. apply elem_insert in H0 as [[= -> ->]|H0]; [lia|]. by apply I5.
      * intros q H0. apply elem_insert in H0 as [?|H0]; [done|]. by apply I6.
      * logs. lia.
      * lia.
      * logs. unfold b2n in *. repeat case_decide; lia.
      * logs. lia.
      * intros j Hj Hp. apply elem_insert in Hj as [->|Hj]; [done|]. specialize (I11 j Hj Hp). lia.
      * apply after_snoc; [done|done].
      * intros l1 l2 E'. apply (last_snoc (ACtx cur comp ref false js log)) in E' as (? & ? & ?); done.
      * intros j [= <-] _. unfold ameasure. simpl. sums Ej; simpl in *. lia.
      * by rewrite insert_length.
  - (* run *)
    destruct (I5 b e Hin) as [Hb He]. eexists. split; [done|].
    split_and!; [constructor; simpl|..]; sums Ej; simpl in *.
    + lia.
    + intros k Hk. logs. rewrite Nat.add_0_r. by apply I2.
    + intros k. specialize (I3 k). sums Ej; logs. unfold b2n in *. repeat case_decide; lia.
    + intros b' e' H0. apply elem_of_app in H0 as [H0|H0]; [by apply I4|]. by apply elem_of_list_singleton in H0.
    + intros b' e' H0. apply elem_insert in H0 as [?|H0]; [done|]. by apply I5.
    + intros q H0. apply elem_insert in H0 as [[= ->]|H0]; [lia|]. by apply I6.
    + logs. lia.
    + lia.
    + logs. unfold b2n in *. repeat case_decide; lia.
    + logs. lia.
    + intros j Hj Hp. apply elem_insert in Hj as [->|Hj]; [done|]. by apply (I11 j).
    + apply after_snoc; [done|done].
    + intros l1 l2 E'. apply (last_snoc (ACtx cur comp ref false js log)) in E' as (? & ? & ?); done.
    + intros j [= <-] _. unfold ameasure. simpl. sums Ej; simpl in *. lia.
    + by rewrite insert_length.
  - (* count *)
    pose proof (I6 p Hin) as Hp. pose proof (sum_in jlen js i _ Ej) as Hle. simpl in Hle.
    rewrite bool_decide_true by lia. cbn [assert_ mbind res_bind]. eexists. split; [done|].
    set (j' := if decide (comp + p = size) then JComplete else JFetch).
    assert (Hj' : jlen j' = 0 ∧ jref j' = 1 ∧ jdel j' = 0 ∧ (∀ k, jin k j' = 0) ∧ jcmp j' = b2n (comp + p = size) ∧ jw j' ≤ 5).
    { unfold j', b2n. destruct (decide (comp + p = size)); simpl; split_and!; try done; lia. }
    destruct Hj' as (J1 & J2 & J3 & J4 & J5 & J6).
    assert (comp ≠ size) by lia.
    split_and!; [constructor; simpl|..]; sums Ej; rewrite ?J1, ?J2, ?J3, ?J5 in *; simpl in *.
    + lia.
    + done.
    + intros k. specialize (I3 k). sums Ej; rewrite ?J4 in *; simpl in *. lia.
    + done.
    + intros b' e' H0. apply elem_insert in H0 as [H0|H0]; [|by apply I5]. unfold j' in H0. by case_decide.
    + intros q H0. apply elem_insert in H0 as [H0|H0]; [|by apply I6]. unfold j' in H0. by case_decide.
    + unfold b2n in *. repeat case_decide; lia.
    + lia.
    + unfold b2n in *. repeat case_decide; lia.
    + done.
    + intros j Hj Hpa. apply elem_insert in Hj as [->|Hj]; [|by apply (I11 j)]. unfold j' in Hpa. destruct (decide (comp + p = size)); [|done]. lia.
    + done.
    + intros l1 l2 E'. rewrite E' in Hrel. unfold releases in Hrel. rewrite sum_list_with_app in Hrel. simpl in Hrel. lia.
    + intros j [= <-] _. unfold ameasure. simpl. sums Ej; simpl in *. lia.
    + by rewrite insert_length.
  - (* complete *)
    pose proof (sum_in jcmp js i _ Ej) as Hcj. simpl in Hcj.
    assert (Hcs : comp = size) by (unfold b2n in I7; case_decide; [done|lia]). subst comp.
    assert (Hc0 : completions log = 0 ∧ sum jcmp js = 1) by (unfold b2n in I7; rewrite decide_True in I7 by done; lia). destruct Hc0 as [Hc0 Hc1].
    assert (Hlen0 : sum jlen js = 0) by lia.
    assert (Hfin : ∀ k, k < size → finished k log = 1).
    { intros k Hk. specialize (I3 k). rewrite I2 in I3 by done. unfold b2n in I3. rewrite decide_True in I3 by lia.
      assert (sum (jin k) js = 0); [|lia]. apply sum_zero. intros x Hx. destruct x as [|b e|q| | | |]; try done. simpl.
      pose proof (proj1 (sum_zero _ _) Hlen0 _ Hx) as H0. simpl in H0. destruct (I5 b e Hx). lia. }
    eexists. split; [done|]. split_and!; [constructor; simpl|..]; sums Ej; simpl in *.
    + lia.
    + intros k Hk. logs. rewrite Nat.add_0_r. by apply I2.
    + intros k. specialize (I3 k). sums Ej; logs. lia.
    + intros b' e' H0. apply elem_of_app in H0 as [H0|H0]; [by apply I4|]. by apply elem_of_list_singleton in H0.
    + intros b' e' H0. apply elem_insert in H0 as [?|H0]; [done|]. by apply I5.
    + intros q H0. apply elem_insert in H0 as [?|H0]; [done|]. by apply I6.
    + logs. lia.
    + lia.
    + logs. unfold b2n in *. repeat case_decide; lia.
    + logs. lia.
    + intros j Hj Hp. lia.
    + apply after_snoc; [done|]. intros _. done.
    + intros l1 l2 E'. apply (last_snoc (ACtx cur size ref false js log)) in E' as (? & ? & ?); done.
    + intros j [= <-] _. unfold ameasure. simpl. sums Ej; simpl in *. lia.
    + by rewrite insert_length.
  - (* ref *)
    pose proof (sum_in jref js i _ Ej) as Hrj. simpl in Hrj.
    rewrite bool_decide_true by lia. cbn [assert_ mbind res_bind]. eexists. split; [done|].
    pose proof (I11 _ Hin I) as Hcur.
    set (j' := if decide (ref - 1 = 0) then JDelete else JDone).
    assert (Hj' : jlen j' = 0 ∧ jref j' = 0 ∧ jdel j' = b2n (ref - 1 = 0) ∧ (∀ k, jin k j' = 0) ∧ jcmp j' = 0 ∧ jw j' ≤ 1).
    { unfold j', b2n. destruct (decide (ref - 1 = 0)); simpl; split_and!; try done; lia. }
    destruct Hj' as (J1 & J2 & J3 & J4 & J5 & J6).
    assert (ref ≠ 0) by lia.
    split_and!; [constructor; simpl|..]; sums Ej; rewrite ?J1, ?J2, ?J3, ?J5 in *; simpl in *.
    + lia.
    + done.
    + intros k. specialize (I3 k). sums Ej; rewrite ?J4 in *; simpl in *. lia.
    + done.
    + intros b' e' H0. apply elem_insert in H0 as [H0|H0]; [|by apply I5]. unfold j' in H0. by case_decide.
    + intros q H0. apply elem_insert in H0 as [H0|H0]; [|by apply I6]. unfold j' in H0. by case_decide.
    + unfold b2n in *. repeat case_decide; lia.
    + lia.
    + unfold b2n in *. repeat case_decide; lia.
    + done.
    + done.
    + done.
    + intros l1 l2 E'. rewrite E' in Hrel. unfold releases in Hrel. rewrite sum_list_with_app in Hrel. simpl in Hrel. lia.
    + intros j [= <-] _. unfold ameasure. simpl. sums Ej; simpl in *. lia.
    + by rewrite insert_length.
  - (* delete *)
    pose proof (sum_in jdel js i _ Ej) as Hdj. simpl in Hdj.
    assert (Hr0 : ref = 0) by (unfold b2n in I9; case_decide; [done|lia]). revert I8. subst ref. intros I8.
    assert (Hd1 : sum jdel js = 1) by (unfold b2n in I9; rewrite decide_True in I9 by done; lia).
    pose proof (I11 _ Hin I) as Hcur.
    assert (Hall : ∀ x, x ∈ js → x = JDelete ∨ x = JDone).
    { intros x Hx. symmetry in I8. pose proof (proj1 (sum_zero _ _) I8 x Hx) as H0. destruct x; simpl in H0; try lia; auto. }
    assert (Hlen0 : sum jlen js = 0) by (apply sum_zero; intros x Hx; destruct (Hall x Hx) as [->| ->]; done).
    assert (Hcmp0 : sum jcmp js = 0) by (apply sum_zero; intros x Hx; destruct (Hall x Hx) as [->| ->]; done).
    assert (Hcs : comp = size) by lia.
    assert (Hc1 : completions log = 1) by (unfold b2n in I7; rewrite decide_True in I7 by done; lia).
    assert (Hfin : ∀ k, k < size → finished k log = 1).
    { intros k Hk. specialize (I3 k). rewrite I2 in I3 by done. unfold b2n in I3. rewrite decide_True in I3 by lia.
      assert (sum (jin k) js = 0); [|lia]. apply sum_zero. intros x Hx. destruct (Hall x Hx) as [->| ->]; done. }
    eexists. split; [done|]. split_and!; [constructor; simpl|..]; sums Ej; simpl in *.
    + lia.
    + intros k Hk. logs. rewrite Nat.add_0_r. by apply I2.
    + intros k. specialize (I3 k). sums Ej; logs. lia.
    + intros b' e' H0. apply elem_of_app in H0 as [H0|H0]; [by apply I4|]. by apply elem_of_list_singleton in H0.
    + intros b' e' H0. apply elem_insert in H0 as [?|H0]; [done|]. by apply I5.
    + intros q H0. apply elem_insert in H0 as [?|H0]; [done|]. by apply I6.
    + logs. lia.
    + lia.
    + logs. unfold b2n in *. repeat case_decide; try done; lia.
    + logs. unfold b2n in *. repeat case_decide; try done; lia.
    + intros j Hj Hp. lia.
    + apply after_snoc; [done|done].
    + intros l1 l2 E'. apply (last_snoc (ACtx cur comp 0 false js log)) in E' as (-> & -> & _); [|done]. simpl. done.
    + intros j [= <-] _. unfold ameasure. simpl. sums Ej; simpl in *. lia.
    + by rewrite insert_length.
Qed.

Lemma a_run_inv s sched : 0 < chunk → 0 < size → ainv s → ∃ s', a_run size chunk s sched = Ok s' ∧ ainv s' ∧ length (a_jobs s') = length (a_jobs s).
Proof.
  intros Hc Hs. unfold a_run. revert s. induction sched as [|i l IH]; intros s I; [by exists s|]. simpl.
  destruct (a_step_inv s i Hc Hs I) as (s1 & E & I1 & _ & L). rewrite E. destruct (IH s1 I1) as (s2 & ? & ? & ?).
  exists s2. split_and!; [done..|congruence].
Qed.
Lemma a_acts_bound s sched t : 0 < chunk → 0 < size → ainv s → acts (a_step size chunk) can_act_a s sched t →
  length sched + ameasure t ≤ ameasure s.
Proof.
  intros Hc Hs I H. induction H as [|s i s' l t (j & Hj & Hd) E _ IH]; [done|].
  destruct (a_step_inv s i Hc Hs I) as (s1 & E1 & I1 & M & _). rewrite E in E1. simplify_eq. specialize (M j Hj Hd). specialize (IH I1). simpl. lia.
Qed.
Lemma ainv_range s i : ainv s → size ≤ i → started i (a_log s) = 0.
Proof.
  intros I Hi. unfold started. apply sum_zero. intros v Hv. destruct v as [b e| | | |]; try done. simpl.
  destruct (ai_rng _ I b e Hv). rewrite decide_False; [done|lia].
Qed.
Lemma ainv_done s : 0 < size → a_jobs s ≠ [] → ainv s → all_done_a s →
  (∀ i, i < size → started i (a_log s) = 1 ∧ finished i (a_log s) = 1) ∧ completions (a_log s) = 1 ∧ releases (a_log s) = 1.
Proof.
  intros Hs Hn I D.
  assert (Hcur : size ≤ a_cur s).
  { destruct (a_jobs s) as [|j js] eqn:E; [done|]. assert (Hj : j ∈ a_jobs s) by (rewrite E; by left). apply (ai_past _ I j Hj). by rewrite (D j Hj). }
  assert (H0 : ∀ f, f JDone = 0 → sum f (a_jobs s) = 0) by (intros f Hf; apply sum_zero; intros x Hx; by rewrite (D x Hx)).
  assert (Hst : ∀ i, i < size → started i (a_log s) = 1).
  { intros i Hi. rewrite (ai_start _ I i Hi). unfold b2n. rewrite decide_True by lia. done. }
  split_and!.
  - intros i Hi. split; [by apply Hst|]. pose proof (ai_fin _ I i) as H. rewrite (Hst i Hi), H0 in H by done. lia.
  - pose proof (ai_cmp _ I) as H. rewrite H0 in H by done. pose proof (ai_len _ I) as H1. rewrite H0 in H1 by done.
    unfold b2n in H. rewrite decide_True in H by lia. lia.
  - pose proof (ai_del _ I) as H. rewrite H0 in H by done. pose proof (ai_ref _ I) as H1. rewrite H0 in H1 by done.
    unfold b2n in H. rewrite decide_True in H by lia. lia.
Qed.
Lemma not_done_acts s : ¬ all_done_a s → ∃ i, can_act_a s i.
Proof.
  intros H. destruct (decide (0 < sum jw (a_jobs s))) as [P|P].
  - apply sum_pos in P as (i & x & E & Hx). exists i, x. split; [done|]. intros ->. simpl in Hx. lia.
  - exfalso. apply H. intros j Hj. assert (P0 : sum jw (a_jobs s) = 0) by lia. pose proof (proj1 (sum_zero _ _) P0 j Hj). by destruct j.
Qed.
End async.

(** ** The blocking form *)
Section wait.
Context (size chunk jobs : nat).

Definition win (i : nat) (j : wst) : nat := match j with WRun b e => b2n (b ≤ i < e) | _ => 0 end.
Definition wnd (j : wst) : nat := match j with WDone => 0 | _ => 1 end.
Definition wpast (j : wst) : Prop := match j with WFetch | WRun _ _ => False | _ => True end.
Definition ww (j : wst) : nat := match j with WRun _ _ => 7 | WFetch => 5 | WDec | WWait => 3 | WSleep => 2 | WDone => 0 end.
Definition wmeasure (s : wctx) : nat := 3 * (size - w_cur s) + sum ww (w_thr s).

Record winv (s : wctx) : Prop := {
  wi_start i : i < size → started i (w_log s) = b2n (i < w_cur s);
  wi_fin i : started i (w_log s) = finished i (w_log s) + sum (win i) (w_thr s);
  wi_rng : ranges_ok size chunk (w_log s);
  wi_cnt : ∃ c ts, w_thr s = c :: ts ∧ c ≠ WDec ∧ w_cnt s = sum wnd ts ∧ (∀ j, j ∈ ts → j ≠ WWait ∧ j ≠ WSleep) ∧
    (c = WSleep → w_flag s = false) ∧ (c = WDone ↔ w_freed s = true) ∧ (c = WDone → w_cnt s = 0) ∧ length ts = jobs ∧ returns (w_log s) = b2n (w_freed s = true);
  wi_flag : 0 < jobs → w_flag s = bool_decide (w_cnt s = 0);
  wi_past j : j ∈ w_thr s → wpast j → size ≤ w_cur s;
  wi_after : after_all_work size Returned (w_log s);
  wi_last l1 l2 : w_log s = l1 ++ Returned :: l2 → l2 = [];
  wi_wait : w_thr s !! 0 = Some WWait ∨ w_thr s !! 0 = Some WSleep → 0 < jobs;
}.

Lemma winv_init : winv (wait_init jobs).
Proof.
  constructor; unfold wait_init; cbn [w_log w_cur w_thr w_cnt w_flag w_freed].
  - done.
  - intros i. rewrite sum_rep. simpl. unfold started, finished. simpl. lia.
  - intros b e H. by apply elem_of_nil in H.
  - exists WFetch, (replicate jobs WFetch). split_and!; try done.
    + rewrite sum_rep. simpl. lia.
    + intros j (-> & _)%elem_of_replicate. done.
    + by rewrite replicate_length.
  - intros H. by rewrite bool_decide_false by lia.
  - intros j (-> & _)%elem_of_replicate. done.
  - intros l1 l2 H. by destruct l1.
  - intros l1 l2 H. by destruct l1.
  - by intros [?|?].
Qed.

Lemma w_last_snoc l v l1 l2 : returns l = 0 → l ++ [v] = l1 ++ Returned :: l2 → l2 = [].
Proof.
  intros Hr E. destruct l2 as [|z l2 _] using rev_ind; [done|].
  change (Returned :: l2 ++ [z]) with ((Returned :: l2) ++ [z]) in E. rewrite (assoc_L (++)) in E.
  apply app_inj_tail in E as [E _]. exfalso. rewrite E in Hr. unfold returns in Hr. rewrite sum_list_with_app in Hr. simpl in Hr. lia.
Qed.
Lemma w_no_ret l l1 l2 : returns l = 0 → l = l1 ++ Returned :: l2 → l2 = [].
Proof. intros Hr ->. unfold returns in Hr. rewrite sum_list_with_app in Hr. simpl in Hr. lia. Qed.

Ltac logs := unfold started, finished, completions, releases, returns in *; rewrite ?sum_list_with_app in *; simpl in *.

(** Returning is safe once all jobs are done and the caller has no work. *)
Lemma w_return_inv cur flag c ts log : c = WFetch ∨ c = WWait → size ≤ cur → (∀ j, j ∈ ts → j = WDone) → length ts = jobs →
  (∀ i, i < size → started i log = 1) → (∀ i, started i log = finished i log) → ranges_ok size chunk log →
  returns log = 0 → (0 < jobs → flag = true) → after_all_work size Returned log →
  ∃ s', w_return (WCtx cur 0 flag false (c :: ts) log) = Ok s' ∧ winv s' ∧ w_cur s' = cur ∧ w_thr s' = WDone :: ts.
Proof.
  intros Hc Hcur Hd Hl Hst Hfn Hr Hret Hfl Ha. unfold w_return. simpl. eexists. split; [done|].
  assert (H0 : ∀ f, f WDone = 0 → sum f ts = 0) by (intros f Hf; apply sum_zero; intros x Hx; by rewrite (Hd x Hx)).
  split; [|done]. constructor; simpl.
  - intros i Hi. unfold b2n. rewrite decide_True by lia. rewrite <- (Hst i Hi). logs. lia.
  - intros i. rewrite H0 by done. specialize (Hfn i). logs. lia.
  - intros b e. rewrite !elem_of_app, !elem_of_list_singleton. intros [[?|?]|?]; [by apply Hr|done..].
  - exists WDone, ts. split_and!; try done.
    + rewrite H0; done.
    + intros j Hj. by rewrite (Hd j Hj).
    + logs. lia.
  - intros Hj. rewrite (Hfl Hj). done.
  - intros j _ _. done.
  - apply after_snoc; [apply after_snoc; [done|done]|]. intros _ i Hi. logs. specialize (Hst i Hi). specialize (Hfn i). lia.
  - intros l1 l2 E. eapply w_last_snoc; [|done]. logs. lia.
  - by intros [?|?].
Qed.

Lemma w_step_inv s i : 0 < chunk → winv s →
  ∃ s', w_step size chunk jobs s i = Ok s' ∧ winv s' ∧ (can_act_w s i → wmeasure s' < wmeasure s).
Proof.
  intros Hc I. unfold w_step. destruct (w_thr s !! i) as [j|] eqn:Ej.
  2:{ exists s. split_and!; try done. intros (j & Hj & _). by rewrite Ej in Hj. }
  assert (Hdd : (j = WDone ∨ j = WSleep) ∨ (j ≠ WDone ∧ j ≠ WSleep)) by (destruct j; auto). destruct Hdd as [Hdd|[Hnd Hns]].
  { exists s. split_and!; [by destruct Hdd as [->| ->]|done|]. intros (j' & Hj & ? & ?). rewrite Ej in Hj. simplify_eq. by destruct Hdd. }
  assert (Hin : j ∈ w_thr s) by (by eapply elem_of_list_lookup_2).
  destruct I as [I2 I3 I4 (c & ts & Ets & Hc1 & Hcnt & Hts & Hsl & Hfr & Hd0 & Hlen & Hret) I6 I7 I8 I9 I10].
  destruct s as [cur cnt flag freed thr log]. cbn [w_log w_cur w_thr w_cnt w_flag w_freed] in *. subst thr.
  (* not freed *)
  assert (Hnf : freed = false).
  { destruct freed; [|done]. exfalso. destruct Hfr as [_ Hfr]. specialize (Hfr eq_refl). subst c. specialize (Hd0 eq_refl).
    assert (Hz : sum wnd (WDone :: ts) = 0) by (simpl; lia). pose proof (proj1 (sum_zero _ _) Hz j Hin). by destruct j. }
  subst freed. assert (Hcd : c ≠ WDone) by (intros E; by apply Hfr in E).
  assert (Hr0 : returns log = 0) by (rewrite Hret; done).
  assert (Hre : require_ (negb false) = Ok tt) by done. rewrite Hre.
  destruct j as [|b e| | | |]; [..|done|done]; cbn [mbind res_bind].
  - (* fetch *)
    destruct (decide (size ≤ cur)) as [He|He].
    + destruct i as [|i].
      * simpl in Ej. injection Ej as ->. rewrite (decide_True (P := 0 = 0)) by done. destruct (decide (jobs = 0)) as [Hj0|Hj0].
        -- (* return immediately *)
           assert (ts = []) as -> by (apply nil_length_inv; lia). simpl in Hcnt. rewrite Hcnt.
           destruct (w_return_inv (cur + chunk) flag WFetch [] log) as (s' & E & I' & C' & T'); try done.
           ++ by left.
           ++ lia.
           ++ by intros ? ?%elem_of_nil.
           ++ intros k Hk. rewrite I2 by done. unfold b2n. by rewrite decide_True by lia.
           ++ intros k. rewrite I3. simpl. lia.
           ++ intros ?. lia.
           ++ exists s'. split_and!; [done..|]. intros _. unfold wmeasure. rewrite C', T'. simpl. lia.
        -- eexists. split; [done|]. split.
           ++ constructor; simpl.
              ** intros k Hk. rewrite I2 by done. unfold b2n. rewrite !decide_True by lia. done.
              ** intros k. rewrite I3. simpl. done.
              ** done.
              ** exists WWait, ts. split_and!; try done.
              ** done.
              ** intros j _ _. lia.
              ** done.
              ** done.
              ** intros _. lia.
           ++ intros _. unfold wmeasure. simpl. lia.
      * rewrite decide_False by done. cbn [lookup list_lookup] in Ej. change (ts !! i = Some WFetch) in Ej.
        eexists. split; [done|]. split.
        -- constructor; simpl.
           ++ intros k Hk. rewrite I2 by done. unfold b2n. rewrite !decide_True by lia. done.
           ++ intros k. specialize (I3 k). simpl in I3. pose proof (sum_insert (win k) ts i _ WDec Ej) as E1. simpl in E1. lia.
           ++ done.
           ++ exists c, (<[i := WDec]> ts). split_and!; try done.
              ** pose proof (sum_insert wnd ts i _ WDec Ej) as E1. simpl in E1. lia.
              ** intros j Hj. apply elem_insert in Hj as [->|Hj]; [done|]. by apply Hts.
              ** by rewrite insert_length.
           ++ done.
           ++ intros j _ _. lia.
           ++ done.
           ++ done.
           ++ done.
        -- intros _. unfold wmeasure. simpl. pose proof (sum_insert ww ts i _ WDec Ej) as E1. simpl in E1. lia.
    + set (e := min (cur + chunk) size). eexists. split; [done|].
      assert (Hgen : ∃ c' ts', <[i := WRun cur e]> (c :: ts) = c' :: ts' ∧ c' ≠ WDec ∧ cnt = sum wnd ts' ∧ (∀ j, j ∈ ts' → j ≠ WWait ∧ j ≠ WSleep) ∧
        (c' = WSleep → flag = false) ∧ (c' = WDone ↔ false = true) ∧ (c' = WDone → cnt = 0) ∧ length ts' = jobs).
      { destruct i as [|i].
        - simpl. exists (WRun cur e), ts. split_and!; try done.
        - change (ts !! i = Some WFetch) in Ej. simpl. exists c, (<[i := WRun cur e]> ts). split_and!; try done.
          + pose proof (sum_insert wnd ts i _ (WRun cur e) Ej) as E1. simpl in E1. lia.
          + intros j Hj. apply elem_insert in Hj as [->|Hj]; [done|]. by apply Hts.
          + by rewrite insert_length. }
      split.
      * constructor; cbn [w_log w_cur w_thr w_cnt w_flag w_freed w_set w_emit].
        -- intros k Hk. specialize (I2 k Hk). logs. rewrite I2. unfold b2n. repeat case_decide; lia.
        -- intros k. specialize (I3 k). pose proof (sum_insert (win k) (c :: ts) i _ (WRun cur e) Ej) as E1.
           assert (Hs : started k (log ++ [Start cur e]) = started k log + b2n (cur ≤ k < e)) by (unfold started; rewrite sum_list_with_app; simpl; unfold b2n; lia).
           assert (Hf : finished k (log ++ [Start cur e]) = finished k log) by (unfold finished; rewrite sum_list_with_app; simpl; lia).
           rewrite Hs, Hf, I3. cbn [win] in E1. lia.
        -- intros b' e' H0. apply elem_of_app in H0 as [H0|H0]; [by apply I4|]. apply elem_of_list_singleton in H0 as [= -> ->]. lia.
        -- destruct Hgen as (c' & ts' & ? & ? & ? & ? & ? & ? & ? & ?). exists c', ts'. split_and!; try done; try tauto. rewrite <- Hret. logs. lia.
        -- done.
        -- intros j Hj Hp. apply elem_insert in Hj as [->|Hj]; [done|]. specialize (I7 j Hj Hp). lia.
        -- apply after_snoc; done.
        -- intros l1 l2 E'. by eapply w_last_snoc.
        -- destruct i as [|i]; [by intros [?|?]|done].
      * intros _. unfold wmeasure. cbn [w_cur w_thr w_set w_emit]. pose proof (sum_insert ww (c :: ts) i _ (WRun cur e) Ej) as E1.
        cbn [ww] in E1. assert (cur < size) by lia. lia.
  - (* run *)
    eexists. split; [done|].
    assert (Hgen : ∃ c' ts', <[i := WFetch]> (c :: ts) = c' :: ts' ∧ c' ≠ WDec ∧ cnt = sum wnd ts' ∧ (∀ j, j ∈ ts' → j ≠ WWait ∧ j ≠ WSleep) ∧
      (c' = WSleep → flag = false) ∧ (c' = WDone ↔ false = true) ∧ (c' = WDone → cnt = 0) ∧ length ts' = jobs).
    { destruct i as [|i].
      - simpl. exists WFetch, ts. split_and!; try done.
      - change (ts !! i = Some (WRun b e)) in Ej. simpl. exists c, (<[i := WFetch]> ts). split_and!; try done.
        + pose proof (sum_insert wnd ts i _ WFetch Ej) as E1. simpl in E1. lia.
        + intros j Hj. apply elem_insert in Hj as [->|Hj]; [done|]. by apply Hts.
        + by rewrite insert_length. }
    split.
    * constructor; cbn [w_log w_cur w_thr w_cnt w_flag w_freed w_set w_emit].
      -- intros k Hk. specialize (I2 k Hk). logs. lia.
      -- intros k. specialize (I3 k). pose proof (sum_insert (win k) (c :: ts) i _ WFetch Ej) as E1.
         assert (Hs : started k (log ++ [Finish b e]) = started k log) by (unfold started; rewrite sum_list_with_app; simpl; lia).
         assert (Hf : finished k (log ++ [Finish b e]) = finished k log + b2n (b ≤ k < e)) by (unfold finished; rewrite sum_list_with_app; simpl; unfold b2n; lia).
         rewrite Hs, Hf, I3. cbn [win] in E1. lia.
      -- intros b' e' H0. apply elem_of_app in H0 as [H0|H0]; [by apply I4|]. by apply elem_of_list_singleton in H0.
      -- destruct Hgen as (c' & ts' & ? & ? & ? & ? & ? & ? & ? & ?). exists c', ts'. split_and!; try done; try tauto. rewrite <- Hret. logs. lia.
      -- done.
      -- intros j Hj Hp. apply elem_insert in Hj as [->|Hj]; [done|]. by apply (I7 j).
      -- apply after_snoc; done.
      -- intros l1 l2 E'. by eapply w_last_snoc.
      -- destruct i as [|i]; [by intros [?|?]|done].
    * intros _. unfold wmeasure. cbn [w_cur w_thr w_set w_emit]. pose proof (sum_insert ww (c :: ts) i _ WFetch Ej) as E1.
      cbn [ww] in E1. lia.
  - (* dec *)
    destruct i as [|i]; [simpl in Ej; by simplify_eq|]. change (ts !! i = Some WDec) in Ej.
    pose proof (sum_insert wnd ts i _ WDone Ej) as E1. cbn [wnd] in E1. pose proof (sum_insert ww ts i _ WDone Ej) as E2. cbn [ww] in E2.
    assert (Hcur : size ≤ cur) by (by apply (I7 WDec)).
    assert (Hjp : 0 < jobs) by (rewrite <- Hlen; apply lookup_lt_Some in Ej; lia).
    rewrite (bool_decide_true (0 < cnt)) by lia. cbn [assert_ mbind res_bind w_set w_thr w_cnt w_cur w_freed w_log w_flag]. simpl.
    assert (Hins : ∀ c', (c' = WSleep → cnt - 1 ≠ 0) → c' ≠ WDec → c' ≠ WDone → (∀ k, win k c' = win k c) → (wpast c' → size ≤ cur) →
      winv (WCtx cur (cnt - 1) (bool_decide (cnt - 1 = 0)) false (c' :: <[i := WDone]> ts) log)).
    { intros c' H1 H2 H3 H4 H5. constructor; simpl.
      - done.
      - intros k. specialize (I3 k). simpl in I3. pose proof (sum_insert (win k) ts i _ WDone Ej) as E3. simpl in E3. rewrite H4. lia.
      - done.
      - exists c', (<[i := WDone]> ts). split_and!; try done.
        + lia.
        + intros j Hj. apply elem_insert in Hj as [->|Hj]; [done|]. by apply Hts.
        + intros ->. rewrite bool_decide_false; [done|]. by apply H1.
        + by rewrite insert_length.
      - done.
      - intros j Hj Hp. done.
      - done.
      - done.
      - done. }
    assert (Hc' : c = WSleep ∨ c ≠ WSleep) by (destruct c; auto). destruct Hc' as [->|Hcs].
    + destruct (decide (cnt - 1 = 0)) as [Hz|Hz].
      * eexists. split; [done|]. rewrite bool_decide_true by done. split.
        -- pose proof (Hins WWait) as HH. rewrite bool_decide_true in HH by done. by apply HH.
        -- intros _. unfold wmeasure. simpl. lia.
      * eexists. split; [done|]. rewrite bool_decide_false by done. split.
        -- pose proof (Hins WSleep) as HH. rewrite bool_decide_false in HH by done. by apply HH.
        -- intros _. unfold wmeasure. simpl. lia.
    + exists (WCtx cur (cnt - 1) (bool_decide (cnt - 1 = 0)) false (c :: <[i := WDone]> ts) log). split; [by destruct c|]. split.
      * apply Hins; try done.
      * intros _. unfold wmeasure. simpl. lia.
  - (* wait *)
    destruct i as [|i].
    2:{ change (ts !! i = Some WWait) in Ej. apply elem_of_list_lookup_2 in Ej. by apply Hts in Ej as [? _]. }
    simpl in Ej. injection Ej as ->. assert (Hcur : size ≤ cur) by (by apply (I7 WWait)).
    destruct flag eqn:Ef; simpl.
    + destruct (decide (length ts = 0)) as [Hl0|Hl0].
      * apply nil_length_inv in Hl0 as ->. simpl in Hcnt. rewrite Hcnt.
        destruct (w_return_inv cur true WWait [] log) as (s' & E & I' & C' & T'); try done; auto.
        -- intros j Hj. by apply elem_of_nil in Hj.
        -- intros k Hk. rewrite I2 by done. unfold b2n. by rewrite decide_True by lia.
        -- intros k. rewrite I3. simpl. lia.
        -- exists s'. split_and!; [done..|]. intros _. unfold wmeasure. rewrite C', T'. simpl. lia.
      * assert (Hz : sum wnd ts = 0). { assert (Hj : 0 < jobs) by lia. specialize (I6 Hj). symmetry in I6. apply bool_decide_eq_true in I6. lia. }
        rewrite Hcnt, Hz. assert (Hall : ∀ j, j ∈ ts → j = WDone) by (intros j Hj; pose proof (proj1 (sum_zero _ _) Hz j Hj); by destruct j).
        destruct (w_return_inv cur true WWait ts log) as (s' & E & I' & C' & T'); try done; auto.
        -- intros k Hk. rewrite I2 by done. unfold b2n. by rewrite decide_True by lia.
        -- intros k. rewrite I3. simpl. assert (sum (win k) ts = 0) by (apply sum_zero; intros x Hx; by rewrite (Hall x Hx)). lia.
        -- exists s'. split_and!; [done..|]. intros _. unfold wmeasure. rewrite C', T'. simpl. lia.
    + eexists. split; [done|]. split.
      * constructor; simpl; try done; [exists WSleep, ts; split_and!; done|]. intros _. by apply I10; left.
      * intros _. unfold wmeasure. simpl. lia.
Qed.

Lemma w_run_inv s sched : 0 < chunk → winv s → ∃ s', w_run size chunk jobs s sched = Ok s' ∧ winv s'.
Proof.
  intros Hc. unfold w_run. revert s. induction sched as [|i l IH]; intros s I; [by exists s|]. simpl.
  destruct (w_step_inv s i Hc I) as (s1 & E & I1 & _). rewrite E. by apply IH.
Qed.
Lemma w_acts_bound s sched t : 0 < chunk → winv s → acts (w_step size chunk jobs) can_act_w s sched t →
  length sched + wmeasure t ≤ wmeasure s.
Proof.
  intros Hc I H. induction H as [|s i s' l t Hj E _ IH]; [done|].
  destruct (w_step_inv s i Hc I) as (s1 & E1 & I1 & M). rewrite E in E1. simplify_eq. specialize (M Hj). specialize (IH I1). simpl. lia.
Qed.
Lemma winv_range s i : winv s → size ≤ i → started i (w_log s) = 0.
Proof.
  intros I Hi. unfold started. apply sum_zero. intros v Hv. destruct v as [b e| | | |]; try done. simpl.
  destruct (wi_rng _ I b e Hv). rewrite decide_False; [done|lia].
Qed.
(** No lost wake-up: as long as a thread has not finished, one can act. *)
Lemma w_progress s : winv s → ¬ all_done_w s → ∃ i, can_act_w s i.
Proof.
  intros I H. destruct (wi_cnt _ I) as (c & ts & E & Hc & Hcnt & Hts & Hsl & Hfr & Hd & Hlen & _).
  destruct (decide (0 < sum wnd ts)) as [P|P].
  - apply sum_pos in P as (i & x & Ei & Hx). exists (S i), x. rewrite E. split_and!; [done|intros ->; simpl in Hx; lia|].
    apply elem_of_list_lookup_2 in Ei. by apply Hts.
  - assert (Hz : sum wnd ts = 0) by lia. exists 0, c. rewrite E. split_and!; [done|..].
    + intros ->. apply H. intros j Hj. rewrite E in Hj. apply elem_of_cons in Hj as [->|Hj]; [done|].
      pose proof (proj1 (sum_zero _ _) Hz j Hj). by destruct j.
    + intros ->. specialize (Hsl eq_refl). destruct (decide (0 < jobs)) as [Hj|Hj].
      * pose proof (wi_flag _ I Hj) as F. rewrite Hsl in F. symmetry in F. apply bool_decide_eq_false in F. lia.
      * destruct Hj. apply (wi_wait _ I). right. by rewrite E.
Qed.
Lemma winv_done s : winv s → all_done_w s → w_freed s = true.
Proof.
  intros I D. destruct (wi_cnt _ I) as (c & ts & E & _ & _ & _ & _ & Hfr & _). apply Hfr. apply D. rewrite E. by left.
Qed.
Lemma winv_returned s : winv s → w_freed s = true → all_done_w s ∧ returns (w_log s) = 1 ∧
  ∀ i, i < size → started i (w_log s) = 1 ∧ finished i (w_log s) = 1.
Proof.
  intros I F. destruct (wi_cnt _ I) as (c & ts & E & _ & Hcnt & _ & _ & Hfr & Hd & _ & Hr).
  assert (Hc : c = WDone) by (by apply Hfr). subst c. specialize (Hd eq_refl).
  assert (D : all_done_w s).
  { intros j Hj. rewrite E in Hj. apply elem_of_cons in Hj as [->|Hj]; [done|]. rewrite Hcnt in Hd. pose proof (proj1 (sum_zero _ _) Hd j Hj). by destruct j. }
  split_and!; [done|by rewrite Hr, F|]. intros i Hi.
  assert (Hcur : size ≤ w_cur s) by (apply (wi_past _ I WDone); [rewrite E; by left|done]).
  assert (Hst : started i (w_log s) = 1) by (rewrite (wi_start _ I i Hi); unfold b2n; by rewrite decide_True by lia).
  split; [done|]. pose proof (wi_fin _ I i) as H. rewrite Hst in H.
  assert (sum (win i) (w_thr s) = 0) by (apply sum_zero; intros x Hx; by rewrite (D x Hx)). lia.
Qed.
End wait.

(** ** Assembly *)
Lemma async_params_ok size workers : 0 < size → 0 < workers → ∃ chunk jobs,
  async_params size workers = Ok (chunk, jobs) ∧ 0 < jobs ≤ workers ∧ 0 < chunk.
Proof.
  intros Hs Hw. unfold async_params. rewrite bool_decide_true by done. simpl. do 2 eexists. split; [done|]. split; lia.
Qed.
Lemma async_ok size workers sched : 0 < size → 0 < workers → ∃ chunk jobs s,
  async_params size workers = Ok (chunk, jobs) ∧ 0 < jobs ≤ workers ∧ enqueue_task size workers sched = Ok s ∧ length (a_jobs s) = jobs ∧
  ainv size chunk s.
Proof.
  intros Hs Hw. destruct (async_params_ok size workers Hs Hw) as (chunk & jobs & E & Hj & Hc). exists chunk, jobs.
  destruct (a_run_inv size chunk (async_init jobs) sched Hc Hs) as (s & Es & I & L); [by apply ainv_init; lia|].
  exists s. split_and!; try done; try lia; [|by rewrite L; apply replicate_length]. unfold enqueue_task. rewrite E. done.
Qed.
Lemma async_coverage size workers sched : 0 < size → 0 < workers → ∃ chunk jobs s,
  async_params size workers = Ok (chunk, jobs) ∧ 0 < jobs ≤ workers ∧
  enqueue_task size workers sched = Ok s ∧ length (a_jobs s) = jobs ∧
  (∀ i, finished i (a_log s) ≤ started i (a_log s) ≤ 1) ∧ (∀ i, size ≤ i → started i (a_log s) = 0) ∧
  ranges_ok size chunk (a_log s) ∧
  (all_done_a s → ∀ i, i < size → started i (a_log s) = 1 ∧ finished i (a_log s) = 1).
Proof.
  intros Hs Hw. destruct (async_ok size workers sched Hs Hw) as (chunk & jobs & s & E & Hj & Es & L & I). exists chunk, jobs, s.
  split; [done|]. split; [done|]. split; [done|]. split; [done|].
  assert (Hr : ∀ i, size ≤ i → started i (a_log s) = 0) by (intros i; by apply (ainv_range size chunk)).
  split; [|split; [done|split; [apply I|]]].
  - intros i. pose proof (ai_fin _ _ _ I i). split; [lia|]. destruct (decide (i < size)) as [Hi|Hi].
    + rewrite (ai_start _ _ _ I i Hi). unfold b2n. case_decide; lia.
    + rewrite Hr by lia. lia.
  - intros D. assert (a_jobs s ≠ []) by (intros H0; rewrite H0 in L; simpl in L; lia). by apply (ainv_done size chunk).
Qed.
Definition no_ret (v : event) : Prop := v ≠ Returned.
Lemma a_step_noret size chunk s i s' : a_step size chunk s i = Ok s' → Forall no_ret (a_log s) → Forall no_ret (a_log s').
Proof.
  intros E F. unfold a_step in E. destruct (a_jobs s !! i) as [j|]; [|by simplify_eq].
  unfold require_, assert_ in E. destruct j; simpl in E; repeat (case_match; simpl in E; try done); simplify_eq; simpl; try done;
    apply Forall_app; split; try done; by repeat constructor.
Qed.
Lemma a_run_noret size chunk s sched s' : a_run size chunk s sched = Ok s' → Forall no_ret (a_log s) → Forall no_ret (a_log s').
Proof.
  unfold a_run. revert s'. induction sched as [|i l IH] using rev_ind; intros s' E F; [by simplify_eq/=|].
  rewrite foldl_snoc in E. destruct (foldl _ _ l) as [s1| | |] eqn:E1; try done. eapply a_step_noret; [done|]. by apply IH.
Qed.
Lemma async_completion size workers sched : 0 < size → 0 < workers → ∃ s,
  enqueue_task size workers sched = Ok s ∧
  completions (a_log s) ≤ 1 ∧ releases (a_log s) ≤ 1 ∧ returns (a_log s) = 0 ∧
  after_all_work size Complete (a_log s) ∧
  (∀ l1 l2, a_log s = l1 ++ Release :: l2 → l2 = [] ∧ completions l1 = 1 ∧ ∀ i, i < size → finished i l1 = 1) ∧
  (0 < releases (a_log s) → all_done_a s) ∧
  (all_done_a s → completions (a_log s) = 1 ∧ releases (a_log s) = 1).
Proof.
  intros Hs Hw. destruct (async_ok size workers sched Hs Hw) as (chunk & jobs & s & E & Hj & Es & L & I). exists s.
  split; [done|]. split; [|split; [|split; [|split; [|split; [|split]]]]].
  - pose proof (ai_cmp _ _ _ I). unfold b2n in *. case_decide; lia.
  - pose proof (ai_del _ _ _ I). unfold b2n in *. case_decide; lia.
  - unfold enqueue_task in Es. rewrite E in Es. simpl in Es. apply a_run_noret in Es; [|constructor].
    unfold returns. apply sum_zero. intros v Hv. rewrite Forall_forall in Es. specialize (Es v Hv). by destruct v.
  - apply I.
  - apply I.
  - intros Hr j Hin. pose proof (ai_del _ _ _ I) as H. pose proof (ai_ref _ _ _ I) as H1. unfold b2n in H. case_decide as H2; [|lia].
    rewrite H2 in H1. symmetry in H1. assert (H3 : sum jdel (a_jobs s) = 0) by lia.
    pose proof (proj1 (sum_zero _ _) H1 j Hin). pose proof (proj1 (sum_zero _ _) H3 j Hin). by destruct j.
  - intros D. assert (a_jobs s ≠ []) by (intros H0; rewrite H0 in L; simpl in L; lia).
    by destruct (ainv_done size chunk s Hs) as (_ & ? & ?).
Qed.
Lemma async_terminates size workers chunk jobs l s : 0 < size → async_params size workers = Ok (chunk, jobs) →
  acts (a_step size chunk) can_act_a (async_init jobs) l s →
  length l ≤ 3 * size + 5 * jobs ∧ (all_done_a s ∨ ∃ i, can_act_a s i).
Proof.
  intros Hs E H. assert (Hp : 0 < chunk ∧ 0 < jobs).
  { destruct (decide (0 < workers)) as [Hw|Hw].
    - destruct (async_params_ok size workers Hs Hw) as (? & ? & E' & ? & ?). rewrite E in E'. simplify_eq. lia.
    - unfold async_params in E. by rewrite bool_decide_false in E by done. }
  destruct Hp as [Hc Hj]. apply a_acts_bound in H; [|done..|by apply ainv_init].
  assert (M : ameasure size (async_init jobs) = 3 * size + 5 * jobs) by (unfold ameasure, async_init; cbn [a_cur a_jobs]; rewrite sum_rep; cbn [jw]; lia).
  rewrite M in H. split; [lia|]. destruct (decide (0 < sum jw (a_jobs s))) as [P|P].
  - right. apply sum_pos in P as (i & x & Ei & Hx). exists i, x. split; [done|]. intros ->. simpl in Hx. lia.
  - left. intros j Hin. assert (P0 : sum jw (a_jobs s) = 0) by lia. pose proof (proj1 (sum_zero _ _) P0 j Hin). by destruct j.
Qed.
Lemma async_size_zero workers sched : 0 < workers → ∃ s,
  enqueue_task 0 workers sched = Ok s ∧ all_done_a s ∧ a_log s = [] ∧ a_freed s = false.
Proof.
  intros Hw. exists (async_init 0). unfold enqueue_task, async_params. rewrite bool_decide_true by done.
  cbn [require_ mbind res_bind]. replace (min workers 0) with 0 by lia. split_and!; [|by intros ? ?%elem_of_nil|done|done].
  set (chunk := max _ _). clearbody chunk. unfold a_run. simpl. induction sched as [|i l IH] using rev_ind; [done|].
  rewrite foldl_snoc, IH. done.
Qed.

Lemma wait_params_ok size workers chunk jobs : wait_params size workers = (chunk, jobs) → 0 < chunk.
Proof. unfold wait_params. intros [= <- <-]. lia. Qed.
Lemma wait_ok size workers sched : ∃ s, enqueue_task_wait size workers sched = Ok s ∧
  winv size (wait_params size workers).1 (wait_params size workers).2 s.
Proof.
  unfold enqueue_task_wait. destruct (wait_params size workers) as [chunk jobs] eqn:E. simpl.
  apply w_run_inv; [by eapply wait_params_ok|apply winv_init].
Qed.
Lemma winv_ret size chunk jobs s : winv size chunk jobs s → returns (w_log s) = b2n (w_freed s = true).
Proof. intros I. by destruct (wi_cnt _ _ _ _ I) as (c & ts & _ & _ & _ & _ & _ & _ & _ & _ & H). Qed.
Lemma wait_coverage size workers sched : ∃ s, enqueue_task_wait size workers sched = Ok s ∧
  (∀ i, finished i (w_log s) ≤ started i (w_log s) ≤ 1) ∧ (∀ i, size ≤ i → started i (w_log s) = 0) ∧
  ranges_ok size (wait_params size workers).1 (w_log s) ∧
  (0 < returns (w_log s) → ∀ i, i < size → started i (w_log s) = 1 ∧ finished i (w_log s) = 1).
Proof.
  destruct (wait_ok size workers sched) as (s & E & I). exists s. split; [done|].
  assert (Hr : ∀ i, size ≤ i → started i (w_log s) = 0) by (intros i; by eapply winv_range).
  split; [|split; [done|split; [apply I|]]].
  - intros i. pose proof (wi_fin _ _ _ _ I i). split; [lia|]. destruct (decide (i < size)) as [Hi|Hi].
    + rewrite (wi_start _ _ _ _ I i Hi). unfold b2n. case_decide; lia.
    + rewrite Hr by lia. lia.
  - intros Hp. rewrite (winv_ret _ _ _ _ I) in Hp. unfold b2n in Hp. case_decide as F; [|lia]. by destruct (winv_returned _ _ _ _ I F) as (_ & _ & ?).
Qed.
Lemma wait_completion size workers sched : ∃ s, enqueue_task_wait size workers sched = Ok s ∧
  returns (w_log s) ≤ 1 ∧ after_all_work size Returned (w_log s) ∧
  (∀ l1 l2, w_log s = l1 ++ Returned :: l2 → l2 = []) ∧
  (returns (w_log s) = 1 ↔ all_done_w s).
Proof.
  destruct (wait_ok size workers sched) as (s & E & I). exists s. split; [done|].
  rewrite (winv_ret _ _ _ _ I). split; [unfold b2n; case_decide; lia|]. split; [apply I|]. split; [apply I|]. split.
  - intros H. unfold b2n in H. case_decide as F; [|lia]. by destruct (winv_returned _ _ _ _ I F) as (? & _).
  - intros D. by rewrite (winv_done _ _ _ _ I D).
Qed.
Lemma wait_terminates size workers chunk jobs l s : wait_params size workers = (chunk, jobs) →
  acts (w_step size chunk jobs) can_act_w (wait_init jobs) l s →
  length l ≤ 3 * size + 5 * S jobs ∧ (all_done_w s ∨ ∃ i, can_act_w s i).
Proof.
  intros E H. assert (Hc : 0 < chunk) by (by eapply wait_params_ok).
  assert (I : winv size chunk jobs s).
  { assert (G : ∀ s0, winv size chunk jobs s0 → acts (w_step size chunk jobs) can_act_w s0 l s → winv size chunk jobs s).
    { clear H E. intros s0 I H. induction H as [|s0 i s1 l s _ E _ IH]; [done|]. apply IH.
      destruct (w_step_inv size chunk jobs s0 i Hc I) as (s2 & E2 & I2 & _). rewrite E in E2. by simplify_eq. }
    apply (G (wait_init jobs)); [apply winv_init|done]. }
  apply w_acts_bound in H; [|done|apply winv_init].
  assert (M : wmeasure size (wait_init jobs) = 3 * size + 5 * S jobs) by (unfold wmeasure, wait_init; cbn [w_cur w_thr]; rewrite sum_rep; cbn [ww]; lia).
  rewrite M in H. split; [lia|].
  destruct (decide (sum ww (w_thr s) = 0)) as [Z|Z].
  - left. intros j Hj. pose proof (proj1 (sum_zero _ _) Z j Hj). by destruct j.
  - right. apply (w_progress size chunk jobs s I). intros D. apply Z. apply sum_zero. intros x Hx. by rewrite (D x Hx).
Qed.

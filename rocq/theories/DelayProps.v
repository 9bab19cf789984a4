(** C34: the playout delay. *)
From Coq Require Import QArith Qabs Qminmax Lqa.
From Verif Require Import DelayModel.
Local Open Scope Q_scope.

(** A view with sensible numbers. *)
Definition view_ok (v : view) : Prop :=
  0 <= v_own v ∧ Forall (λ o, match o with Some x => 0 <= x | None => True end) (v_others v) ∧ 0 <= v_mult v ∧ 0 <= v_max v.

(** The largest round trip time, independently of the loop. *)
Definition is_biggest (v : view) (b : Q) : Prop :=
  v_own v <= b ∧ (∀ x, Some x ∈ v_others v → x <= b) ∧ (b == v_own v ∨ ∃ x, Some x ∈ v_others v ∧ b == x).
Lemma fold_biggest l : ∀ a, let b := foldl (λ acc o, match o with Some x => Qmax x acc | None => acc end) a l in
  a <= b ∧ (∀ x, Some x ∈ l → x <= b) ∧ (b == a ∨ ∃ x, Some x ∈ l ∧ b == x).
Proof.
  induction l as [|[x|] l IH]; intros a; cbn [foldl].
  - split; [lra|]. split; [by intros x ?%elem_of_nil|by left].
  - destruct (IH (Qmax x a)) as (H1 & H2 & H3). pose proof (Q.le_max_l x a). pose proof (Q.le_max_r x a). split; [lra|]. split.
    + intros y [[= ->]|Y]%elem_of_cons; [lra|by apply H2].
    + destruct H3 as [H3|(y & Y & H3)].
      * destruct (Q.max_spec x a) as [[_ M]|[_ M]]; [left; lra|]. right. exists x. split; [by left|lra].
      * right. exists y. split; [by right|done].
  - destruct (IH a) as (H1 & H2 & H3). split; [done|]. split.
    + intros y [?|Y]%elem_of_cons; [done|by apply H2].
    + destruct H3 as [H3|(y & Y & H3)]; [by left|]. right. exists y. split; [by right|done].
Qed.
(** The computed delay is the smaller of the scaled largest latency and the maximum. *)
Theorem C34_computed v : view_ok v → ∃ b, is_biggest v b ∧
  (b / 2 * v_mult v <= v_max v → computed v == b / 2 * v_mult v) ∧ (v_max v <= b / 2 * v_mult v → computed v == v_max v) ∧
  0 <= computed v ∧ computed v <= v_max v.
Proof.
  intros (V1 & V2 & V3 & V4). destruct (fold_biggest (v_others v) (v_own v)) as (H1 & H2 & H3).
  exists (biggest_rtt v). split; [done|]. unfold computed.
  assert (B : 0 <= biggest_rtt v) by (unfold biggest_rtt; lra).
  assert (P : 0 <= biggest_rtt v / 2 * v_mult v).
  { apply Qmult_le_0_compat; [|done]. unfold Qdiv. apply Qmult_le_0_compat; [done|]. by vm_compute. }
  split_and!.
  - apply Q.min_l.
  - apply Q.min_r.
  - by apply Q.min_glb.
  - apply Q.le_min_r.
Qed.
Print Assumptions C34_computed.

(** One evaluation: the delay changes exactly when the computed one differs by more than 6
    percent of it, then to the computed one, and the client is told exactly then; in any
    case it ends up within 6 percent of the computed one. *)
Theorem C34_step d v : 0 <= d → view_ok v →
  let '(d', p) := delay_step d v in
  (Qabs (computed v - d) <= d * (6 # 100) → d' = d ∧ p = None) ∧
  (d * (6 # 100) < Qabs (computed v - d) → d' = computed v ∧ p = Some d') ∧
  0 <= d' ∧ Qabs (computed v - d') <= d' * (6 # 100).
Proof.
  intros D V. destruct (C34_computed v V) as (_ & _ & _ & _ & C1 & C2). unfold delay_step.
  destruct (Qle_bool (Qabs (computed v - d)) (d * (6 # 100))) eqn:E; cbn [negb].
  - apply Qle_bool_iff in E. split_and!; try done. intros X. lra.
  - assert (N : ¬ Qabs (computed v - d) <= d * (6 # 100)). { intros X. apply Qle_bool_iff in X. congruence. }
    split_and!; try done. apply Qabs_case; intros; lra.
Qed.
Print Assumptions C34_step.
Lemma step_nonneg d v : 0 <= d → view_ok v → 0 <= (delay_step d v).1.
Proof. intros D V. pose proof (C34_step d v D V) as H. destruct (delay_step d v). cbn. tauto. Qed.
Lemma run_nonneg vs : ∀ d, 0 <= d → Forall view_ok vs → 0 <= delay_run d vs.
Proof. induction vs as [|v vs IH]; intros d D F; [done|]. apply Forall_cons in F as [F1 F2]. apply IH; [by apply step_nonneg|done]. Qed.

(** Over every sequence of evaluations the delay never exceeds a maximum that is never
    exceeded by the configured ones, and is within 6 percent of the last computed delay. *)
Theorem C34_bounded vs m :
  0 <= m → Forall view_ok vs → Forall (λ v, v_max v <= m) vs → 0 <= delay_run 0 vs ∧ delay_run 0 vs <= m.
Proof.
  intros M F1 F2. split; [by apply run_nonneg; [lra|]|].
  assert (X : ∀ d, d <= m → delay_run d vs <= m); [|by apply X].
  induction vs as [|v vs IH]; intros d D; [done|]. apply Forall_cons in F1 as [F1 F1'], F2 as [F2 F2'].
  apply IH; [done..|]. destruct (C34_computed v F1) as (_ & _ & _ & _ & C1 & C2). unfold delay_step.
  destruct (negb _); cbn; lra.
Qed.
Print Assumptions C34_bounded.
Theorem C34_close vs v :
  Forall view_ok vs → view_ok v → let d := delay_run 0 (vs ++ [v]) in
  Qabs (computed v - d) <= d * (6 # 100) ∧ d * (94 # 100) <= v_max v.
Proof.
  intros F V d. unfold d, delay_run. rewrite foldl_app. cbn [foldl]. fold (delay_run 0 vs).
  assert (D : 0 <= delay_run 0 vs) by (by apply run_nonneg; [lra|]).
  pose proof (C34_step _ v D V) as H. destruct (delay_step (delay_run 0 vs) v) as [d' p]. cbn.
  destruct H as (_ & _ & H1 & H2). split; [done|].
  destruct (C34_computed v V) as (_ & _ & _ & _ & C1 & C2).
  revert H2. apply Qabs_case; intros; lra.
Qed.
Print Assumptions C34_close.
(** The client always has the server's delay. *)
Theorem C34_told vs : told_run 0 0 vs = delay_run 0 vs.
Proof.
  assert (X : ∀ d, foldl (λ '(c, d) v, let '(d', p) := delay_step d v in (default c p, d')) (d, d) vs = (delay_run d vs, delay_run d vs)).
  { induction vs as [|v vs IH]; intros d; [done|]. cbn [foldl]. unfold delay_run. cbn [foldl]. rewrite <- IH. f_equal.
    unfold delay_step. by destruct (negb _). }
  unfold told_run. by rewrite X.
Qed.
Print Assumptions C34_told.
(** When the maximum is lowered by less than 6 percent, the delay stays above the new
    maximum, however often it is evaluated. *)
Definition c34_before := View 1 [Some 4; None] 1 (1 # 1).
Definition c34_after := View 1 [Some 4; None] 1 (95 # 100).
Theorem C34_lowered_refuted n :
  view_ok c34_before ∧ view_ok c34_after ∧ v_max c34_after < delay_run 0 (c34_before :: replicate n c34_after).
Proof.
  split_and!; try (repeat constructor; cbn; lra).
  assert (X : delay_run 0 (c34_before :: replicate n c34_after) = 1).
  { unfold delay_run. cbn [foldl]. change (delay_step 0 c34_before).1 with 1. induction n as [|n IH]; [done|]. cbn [replicate foldl].
    change (delay_step 1 c34_after).1 with 1. exact IH. }
  rewrite X. cbn. lra.
Qed.
Print Assumptions C34_lowered_refuted.
Definition c34_views := [View (10#100) [None; Some (30#100)] 2 1; View (10#100) [Some (29#100)] 2 1; View (10#100) [] 2 1].
Example C34_case : Forall view_ok c34_views ∧
  Forall2 Qeq ((λ n, delay_run 0 (take n c34_views)) <$> seq 0 4) [0; 30#100; 30#100; 10#100].
Proof. split; [repeat constructor; cbn; lra|]. repeat constructor; vm_compute; reflexivity. Qed.

(** Proofs about lines and rectangles of the plane. *)
From Verif Require Import Outcome BoxModel GeoModel RotSpec RotProofs NearModel PlaneModel PlaneSpec PlaneProofs.
From Coq Require Import Reals Lra Psatz.
Local Open Scope R_scope.

(** * The oblique case in terms of the four parameters *)
(** where the line meets the left, right, bottom and top edge's line; [su], [sv]
    say whether it goes right and up *)
Definition lt_dir (up : bool) (a b : R) : bool := if up then rltb a b else rltb b a.
Definition le_dir (up : bool) (a b : R) : bool := if up then rleb a b else rleb b a.
Definition oblique (ru up : bool) (tl tr tb tp : R) : list R :=
  let l := if le_dir up tb tl && lt_dir up tl tp then [tl] else [] in
  let l := add_param (lt_dir up tb tr && le_dir up tr tp) tr l in
  if (length l =? 2)%nat then l else
  let l := add_param (le_dir ru tl tb && lt_dir ru tb tr) tb l in
  if (length l =? 2)%nat then l else
  add_param (lt_dir ru tl tp && le_dir ru tp tr) tp l.

Definition within (ru up : bool) (tl tr tb tp t : R) : Prop :=
  (if ru then tl <= t <= tr else tr <= t <= tl) ∧ (if up then tb <= t <= tp else tp <= t <= tb).

Ltac crunch := unfold oblique, add_param, le_dir, lt_dir, within in *; simpl in *;
  repeat match goal with
  | |- context [if rltb ?a ?b then _ else _] => let H := fresh "L" in
      destruct (rltb a b) eqn:H; [apply rltb_true in H|apply rltb_false in H]; simpl
  | |- context [rltb ?a ?b] => let H := fresh "L" in
      destruct (rltb a b) eqn:H; [apply rltb_true in H|apply rltb_false in H]; simpl
  | |- context [rleb ?a ?b] => let H := fresh "L" in
      destruct (rleb a b) eqn:H; [apply rleb_true in H|apply rleb_false in H]; simpl
  end.

(** what is counted is where the line enters or leaves *)
Lemma oblique_sound (ru up : bool) tl tr tb tp s :
  (if ru then tl < tr else tr < tl) → (if up then tb < tp else tp < tb) →
  s ∈ oblique ru up tl tr tb tp →
  within ru up tl tr tb tp s ∧ (s = tl ∨ s = tr ∨ s = tb ∨ s = tp).
Proof.
  intros H1 H2 Hs.
  assert (G : Forall (λ s, within ru up tl tr tb tp s ∧ (s = tl ∨ s = tr ∨ s = tb ∨ s = tp)) (oblique ru up tl tr tb tp)).
  { clear Hs. destruct ru, up; crunch; repeat apply Forall_cons_2; try apply Forall_nil_2; (split; [split; lra|tauto]). }
  rewrite Forall_forall in G. by apply G.
Qed.

Lemma covers2 a b t : (a <= t <= b ∨ b <= t <= a) → covers [a; b] t.
Proof.
  intros [H|H]; left; [exists a, b|exists b, a]; (split_and!; [| |lra|lra]); set_solver.
Qed.
Lemma covers1 s t : - eps <= t - s <= eps → covers [s] t.
Proof. intros H. right. exists s. split; [done|]. unfold Rabs. destruct Rcase_abs; lra. Qed.

Lemma oblique_complete (ru up : bool) tl tr tb tp t :
  (if ru then tl < tr else tr < tl) → (if up then tb < tp else tp < tb) →
  tl ≠ tp → tr ≠ tb → within ru up tl tr tb tp t → covers (oblique ru up tl tr tb tp) t.
Proof.
  intros H1 H2 N1 N2 Ht. pose proof eps_pos2 as He.
  assert (Hab : ∀ x, eps < Rabs x ↔ eps < x ∨ x < - eps).
  { intros x. unfold Rabs. destruct Rcase_abs; lra. }
  assert (Hab' : ∀ x, Rabs x <= eps ↔ - eps <= x <= eps).
  { intros x. unfold Rabs. destruct Rcase_abs; lra. }
  assert (N1' : tl < tp ∨ tp < tl) by lra. assert (N2' : tr < tb ∨ tb < tr) by lra. clear N1 N2.
  destruct ru, up; destruct N1' as [N1|N1], N2' as [N2|N2]; crunch;
  repeat match goal with
  | H : eps < Rabs _ |- _ => apply Hab in H
  | H : Rabs _ <= eps |- _ => apply Hab' in H
  end; clear Hab Hab';
  first [exfalso; lra | apply covers2; lra | apply covers1; lra | idtac].
Qed.

(** * The code's tests are comparisons of the parameters *)
Lemma mul_lt d a b : 0 < d → d * a < d * b ↔ a < b.
Proof. intros. split; intros; [by apply (Rmult_lt_reg_l d)|by apply Rmult_lt_compat_l]. Qed.
Lemma mul_lt_neg d a b : d < 0 → d * a < d * b ↔ b < a.
Proof. intros. rewrite <- (mul_lt (- d) b a) by lra. split; intros; lra. Qed.
Lemma rltb_iff a b c d : (a < b ↔ c < d) → rltb a b = rltb c d.
Proof. intros H. unfold rltb. repeat destruct Rlt_dec; try done; tauto. Qed.
Lemma rleb_iff a b c d : (b < a ↔ d < c) → rleb a b = rleb c d.
Proof. intros H. unfold rleb. repeat destruct Rle_dec; try done; exfalso; lra. Qed.
Lemma cmp_lt up x d a b : (if up : bool then 0 < d else d < 0) →
  rltb (x + d * a) (x + d * b) = lt_dir up a b.
Proof.
  intros H. unfold lt_dir. destruct up; apply rltb_iff.
  - rewrite <- (mul_lt d a b) by lra. split; intros; lra.
  - rewrite <- (mul_lt_neg d a b) by lra. split; intros; lra.
Qed.
Lemma cmp_le up x d a b : (if up : bool then 0 < d else d < 0) →
  rleb (x + d * a) (x + d * b) = le_dir up a b.
Proof.
  intros H. unfold le_dir. destruct up; apply rleb_iff.
  - rewrite <- (mul_lt d b a) by lra. split; intros; lra.
  - rewrite <- (mul_lt_neg d b a) by lra. split; intros; lra.
Qed.

Lemma aabb_oblique p0 p1 mn mx (ru up : bool) :
  let d := sub2 p1 p0 in
  eps <= Rabs (ux d) → eps <= Rabs (uy d) →
  (if ru then 0 < ux d else ux d < 0) → (if up then 0 < uy d else uy d < 0) →
  intersect_line_aabb p0 p1 mn mx = Ok (oblique ru up
    ((ux mn - ux p0) / ux d) ((ux mx - ux p0) / ux d) ((uy mn - uy p0) / uy d) ((uy mx - uy p0) / uy d)).
Proof.
  intros d Hx Hy Hru Hup. unfold intersect_line_aabb. fold d.
  rewrite (proj2 (rltb_false _ _) Hx), (proj2 (rltb_false _ _) Hy).
  assert (Nx : ux d ≠ 0) by (destruct ru; lra). assert (Ny : uy d ≠ 0) by (destruct up; lra).
  change (ux (sub2 mn p0)) with (ux mn - ux p0). change (ux (sub2 mx p0)) with (ux mx - ux p0).
  change (uy (sub2 mn p0)) with (uy mn - uy p0). change (uy (sub2 mx p0)) with (uy mx - uy p0).
  set (tl := (ux mn - ux p0) / ux d). set (tr := (ux mx - ux p0) / ux d).
  set (tb := (uy mn - uy p0) / uy d). set (tp := (uy mx - uy p0) / uy d).
  assert (El : ux mn = ux p0 + ux d * tl) by (unfold tl; field; done).
  assert (Er : ux mx = ux p0 + ux d * tr) by (unfold tr; field; done).
  assert (Eb : uy mn = uy p0 + uy d * tb) by (unfold tb; field; done).
  assert (Et : uy mx = uy p0 + uy d * tp) by (unfold tp; field; done).
  clearbody tl tr tb tp. rewrite El, Er, Eb, Et.
  rewrite !(cmp_lt up (uy p0) (uy d)), !(cmp_le up (uy p0) (uy d)) by done.
  rewrite !(cmp_lt ru (ux p0) (ux d)), !(cmp_le ru (ux p0) (ux d)) by done.
  unfold oblique. repeat match goal with |- context [if (length ?l =? 2)%nat then _ else _] => destruct (length l =? 2)%nat end; done.
Qed.

Lemma in_rect_within p0 p1 mn mx (ru up : bool) t :
  let d := sub2 p1 p0 in
  (if ru then 0 < ux d else ux d < 0) → (if up then 0 < uy d else uy d < 0) →
  in_rect mn mx (pt p0 p1 t) ↔ within ru up
    ((ux mn - ux p0) / ux d) ((ux mx - ux p0) / ux d) ((uy mn - uy p0) / uy d) ((uy mx - uy p0) / uy d) t.
Proof.
  intros d Hru Hup. unfold in_rect, within, pt. simpl.
  change (ux p1 - ux p0) with (ux d). change (uy p1 - uy p0) with (uy d). clearbody d.
  assert (G : ∀ (b : bool) m M x e, (if b then 0 < e else e < 0) →
     m <= x + t * e <= M ↔ (if b then (m - x) / e <= t <= (M - x) / e else (M - x) / e <= t <= (m - x) / e)).
  { intros b m M x e He.
    assert (Nx : e ≠ 0) by (destruct b; lra).
    assert (E1 : (m - x) / e * e = m - x) by (field; done).
    assert (E2 : (M - x) / e * e = M - x) by (field; done).
    destruct b; split; intros [? ?]; split; nra. }
  rewrite (G ru), (G up) by done. done.
Qed.

Lemma div_order (b : bool) e u v : (if b then 0 < e else e < 0) → u < v →
  if b then u / e < v / e else v / e < u / e.
Proof.
  intros He Huv. destruct b.
  - apply Rmult_lt_compat_r; [by apply Rinv_0_lt_compat|done].
  - unfold Rdiv. pose proof (Rinv_lt_0_compat e He). nra.
Qed.

Definition rect_case (p0 p1 mn mx : v2) (l : list R) : Prop :=
  (∀ s, s ∈ l → on_rect mn mx (pt p0 p1 s)) ∧
  ((∀ t, pt p0 p1 t ≠ V2 (ux mn) (uy mx)) → (∀ t, pt p0 p1 t ≠ V2 (ux mx) (uy mn)) →
   ∀ t, in_rect mn mx (pt p0 p1 t) → covers l t).

Lemma rect_oblique p0 p1 mn mx :
  ux mn < ux mx → uy mn < uy mx →
  eps <= Rabs (ux p1 - ux p0) → eps <= Rabs (uy p1 - uy p0) →
  ∃ l, intersect_line_aabb p0 p1 mn mx = Ok l ∧ rect_case p0 p1 mn mx l.
Proof.
  intros Hw Hh Hx Hy. pose proof eps_pos2 as He.
  set (d := sub2 p1 p0).
  change (ux p1 - ux p0) with (ux d) in Hx. change (uy p1 - uy p0) with (uy d) in Hy.
  assert (Hru : ∃ ru : bool, if ru then 0 < ux d else ux d < 0).
  { unfold Rabs in Hx. destruct Rcase_abs; [exists false|exists true]; lra. }
  assert (Hup : ∃ up : bool, if up then 0 < uy d else uy d < 0).
  { unfold Rabs in Hy. destruct Rcase_abs; [exists false|exists true]; lra. }
  destruct Hru as [ru Hru], Hup as [up Hup].
  assert (Nx : ux d ≠ 0) by (destruct ru; lra). assert (Ny : uy d ≠ 0) by (destruct up; lra).
  eexists. split; [by apply (aabb_oblique p0 p1 mn mx ru up)|]. fold d.
  assert (O1 := div_order ru (ux d) (ux mn - ux p0) (ux mx - ux p0) Hru ltac:(lra)).
  assert (O2 := div_order up (uy d) (uy mn - uy p0) (uy mx - uy p0) Hup ltac:(lra)).
  assert (Px : ∀ k, ux p0 + (k - ux p0) / ux d * (ux p1 - ux p0) = k).
  { intros k. change (ux p1 - ux p0) with (ux d). field. done. }
  assert (Py : ∀ k, uy p0 + (k - uy p0) / uy d * (uy p1 - uy p0) = k).
  { intros k. change (uy p1 - uy p0) with (uy d). field. done. }
  split.
  - intros s Hs. apply oblique_sound in Hs as [Hs Hs']; [|done|done].
    split; [by apply (in_rect_within p0 p1 mn mx ru up)|].
    simpl. destruct Hs' as [ -> |[ -> |[ -> | -> ]]]; rewrite ?Px, ?Py; tauto.
  - intros N1 N2 t Ht. apply oblique_complete; [done|done|..|by apply (in_rect_within p0 p1 mn mx ru up)].
    + intros E. apply (N1 ((ux mn - ux p0) / ux d)). unfold pt. f_equal; [apply Px|]. rewrite E. apply Py.
    + intros E. apply (N2 ((ux mx - ux p0) / ux d)). unfold pt. f_equal; [apply Px|]. rewrite E. apply Py.
Qed.

Lemma rect_vertical p0 p1 mn mx :
  ux mn < ux mx → uy mn < uy mx → ux p1 = ux p0 → uy p1 ≠ uy p0 →
  ∃ l, intersect_line_aabb p0 p1 mn mx = Ok l ∧
    (∀ s, s ∈ l → on_rect mn mx (pt p0 p1 s)) ∧ (∀ t, in_rect mn mx (pt p0 p1 t) → covers l t).
Proof.
  intros Hw Hh Ex Ny. pose proof eps_pos2 as He. unfold intersect_line_aabb.
  replace (ux (sub2 p1 p0)) with 0 by (simpl; lra). rewrite Rabs_R0, (proj2 (rltb_true 0 eps)) by done. simpl.
  unfold rdiv. destruct (Req_EM_T (uy p1 - uy p0) 0) as [|N]; [lra|].
  destruct (rleb (ux mn - ux p0) 0 && rleb 0 (ux mx - ux p0)) eqn:B.
  - apply andb_true_iff in B as [B1 B2]. apply rleb_true in B1, B2. simpl.
    eexists. split; [done|].
    assert (Py : ∀ k, uy p0 + (k - uy p0) / (uy p1 - uy p0) * (uy p1 - uy p0) = k) by (intros; field; done).
    split.
    + intros s Hs. apply elem_of_cons in Hs as [ -> |Hs%elem_of_list_singleton]; [|subst s]; unfold on_rect, in_rect, pt; simpl;
        rewrite Py, Ex; (split; [lra|tauto]).
    + intros t [_ Ht]. simpl in Ht. apply covers2.
      set (e := uy p1 - uy p0) in *.
      assert (E1 : (uy mn - uy p0) / e * e = uy mn - uy p0) by (field; done).
      assert (E2 : (uy mx - uy p0) / e * e = uy mx - uy p0) by (field; done).
      destruct (Rlt_dec e 0); [right|left]; split; nra.
  - exists []. split; [done|]. split; [by intros s Hs%elem_of_nil|].
    intros t [Ht _]. simpl in Ht. rewrite Ex in Ht. exfalso.
    apply andb_false_iff in B as [B|B]; apply rleb_false in B; nra.
Qed.
Lemma rect_horizontal p0 p1 mn mx :
  ux mn < ux mx → uy mn < uy mx → uy p1 = uy p0 → eps <= Rabs (ux p1 - ux p0) →
  ∃ l, intersect_line_aabb p0 p1 mn mx = Ok l ∧
    (∀ s, s ∈ l → on_rect mn mx (pt p0 p1 s)) ∧ (∀ t, in_rect mn mx (pt p0 p1 t) → covers l t).
Proof.
  intros Hw Hh Ey Nx. pose proof eps_pos2 as He. unfold intersect_line_aabb.
  change (ux (sub2 p1 p0)) with (ux p1 - ux p0). rewrite (proj2 (rltb_false _ _) Nx).
  replace (uy (sub2 p1 p0)) with 0 by (simpl; lra). rewrite Rabs_R0, (proj2 (rltb_true 0 eps)) by done. simpl.
  assert (N : ux p1 - ux p0 ≠ 0). { intros E. rewrite E, Rabs_R0 in Nx. lra. }
  unfold rdiv. destruct (Req_EM_T (ux p1 - ux p0) 0) as [|_]; [done|].
  destruct (rleb (uy mn - uy p0) 0 && rleb 0 (uy mx - uy p0)) eqn:B.
  - apply andb_true_iff in B as [B1 B2]. apply rleb_true in B1, B2. simpl.
    eexists. split; [done|].
    assert (Py : ∀ k, ux p0 + (k - ux p0) / (ux p1 - ux p0) * (ux p1 - ux p0) = k) by (intros; field; done).
    split.
    + intros s Hs. apply elem_of_cons in Hs as [ -> |Hs%elem_of_list_singleton]; [|subst s]; unfold on_rect, in_rect, pt; simpl;
        rewrite Py, Ey; (split; [lra|tauto]).
    + intros t [Ht _]. simpl in Ht. apply covers2.
      set (e := ux p1 - ux p0) in *.
      assert (E1 : (ux mn - ux p0) / e * e = ux mn - ux p0) by (field; done).
      assert (E2 : (ux mx - ux p0) / e * e = ux mx - ux p0) by (field; done).
      destruct (Rlt_dec e 0); [right|left]; split; nra.
  - exists []. split; [done|]. split; [by intros s Hs%elem_of_nil|].
    intros t [_ Ht]. simpl in Ht. rewrite Ey in Ht. exfalso.
    apply andb_false_iff in B as [B|B]; apply rleb_false in B; nra.
Qed.

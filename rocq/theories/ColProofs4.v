(** The features of a box, and boxes against planes. *)
From Verif Require Import Outcome BoxModel GeoModel RotSpec RotProofs NearModel NearSpec NearProofs NearProofs2 RayModel RaySpec
  RayProofs2 RayProofs3 RayProps SupModel SupSpec SupProofs SupProofs2 ColModel ColSpec ColProofs ColProofs2.
From Coq Require Import Reals Lra Psatz.
Local Open Scope R_scope.

Definition adj4 (i j : nat) : bool :=
  match i, j with
  | 0, 1 | 1, 2 | 2, 3 | 3, 0 | 1, 0 | 2, 1 | 3, 2 | 0, 3 => true
  | _, _ => false
  end%nat.
Definition get4 (p0 p1 p2 p3 : R) (i : nat) : R := match i with 0 => p0 | 1 => p1 | 2 => p2 | _ => p3 end%nat.
Definition picked (p0 p1 p2 p3 thr m : R) (pick : option (list nat)) : Prop :=
  let P := get4 p0 p1 p2 p3 in
  (p0 <= m ∧ p1 <= m ∧ p2 <= m ∧ p3 <= m) ∧
  match pick with
  | None => (m = p0 ∨ m = p1 ∨ m = p2 ∨ m = p3) ∧ m - thr < p0 ∧ m - thr < p1 ∧ m - thr < p2 ∧ m - thr < p3
  | Some [i] => (i < 4)%nat ∧ P i = m ∧ ∀ k, (k < 4)%nat → k ≠ i → P k <= m - thr
  | Some [i; j] => adj4 i j = true ∧ m - thr < P i ∧ m - thr < P j ∧ (P i = m ∨ P j = m) ∧
      (∀ k, (k < 4)%nat → k ≠ i → k ≠ j → P k <= P i ∧ P k <= P j) ∧ ∃ k, (k < 4)%nat ∧ P k <= m - thr
  | _ => False
  end.
Lemma four (Q : nat → Prop) : Q 0%nat → Q 1%nat → Q 2%nat → Q 3%nat → ∀ k, (k < 4)%nat → Q k.
Proof. intros. destruct k as [|[|[|[|]]]]; [done..|lia]. Qed.
Ltac rcase a b := let E := fresh "E" in destruct (rltb a b) eqn:E; [apply rltb_true in E|apply rltb_false in E].
Ltac lcase a b := let E := fresh "E" in destruct (rleb a b) eqn:E; [apply rleb_true in E|apply Bool.not_true_iff_false in E; rewrite rleb_true in E].
Ltac by_four := let k := fresh in let H := fresh in intros k H; destruct k as [|[|[|[|k]]]]; [| | | |exfalso; lia]; cbn; intros; first [congruence|lra].
Ltac picked_tac :=
  cbn; first
  [ exfalso; lra
  | (split; [lra|]); split; [lia|]; split; [lra|]; by_four
  | (split; [lra|]); split; [done|]; split; [lra|]; split; [lra|]; split; [first [left; lra|right; lra]|]; split;
      [by_four
      |first [exists 0%nat; split; [lia|cbn; lra]|exists 1%nat; split; [lia|cbn; lra]|exists 2%nat; split; [lia|cbn; lra]|exists 3%nat; split; [lia|cbn; lra]]]
  | (split; [lra|]); split; [first [left; lra|right; left; lra|right; right; left; lra|right; right; right; lra]|lra] ].
Lemma pick_ok p0 p1 p2 p3 thr : p0 + p2 = p1 + p3 → 0 < thr → - scalar_max < p0 →
  ∃ m pick, support_pick [p0; p1; p2; p3] thr = Ok (m, pick) ∧ picked p0 p1 p2 p3 thr m pick.
Proof.
  intros Par Ht H0. unfold support_pick.
  set (sm := - scalar_max) in *. clearbody sm.
  assert (E0 : rltb sm p0 = true) by (apply rltb_true; done).
  cbn. rewrite E0. cbn. unfold picked.
  repeat (match goal with |- context [rltb ?a ?b] => rcase a b end; cbn; unfold Datatypes.id in *; try (exfalso; lra));
  repeat (match goal with |- context [rleb ?a ?b] => lcase a b end; cbn; try (exfalso; lra));
    (do 2 eexists; split; [reflexivity|]); picked_tac.
Qed.

(** ** The faces *)
Notation corner := box_corner (only parsing).
Definition vert (h : v3) (i : nat) : v3 := mul3 h (nth i box_signs vec0).
Lemma box_vertex_eq h i : (i < 8)%nat → box_vertex h i = Ok (vert h i).
Proof. intros H. unfold box_vertex, vert. do 8 (destruct i as [|i]; [done|]). lia. Qed.
Lemma vert_corner h i : (i < 8)%nat → corner h (vert h i).
Proof.
  intros H. unfold box_corner, vert. do 8 (destruct i as [|i]; [cbn; lra|]). lia.
Qed.
Definition face_axis (f : nat) : axis := match f with 0 | 1 => AX | 2 | 3 => AY | _ => AZ end%nat.
Definition face_sign (f : nat) : R := match f with 0%nat | 2%nat | 4%nat => 1 | _ => -1 end.
(** Every face: its corners in cyclic order, all of them, as a parallelogram *)
Definition face_ok (f : nat) (l : list nat) : Prop := ∃ i0 i1 i2 i3,
  l = [i0; i1; i2; i3] ∧ ((i0 < 8) ∧ (i1 < 8) ∧ (i2 < 8) ∧ (i3 < 8))%nat ∧
  (∀ h, add3 (vert h i0) (vert h i2) = add3 (vert h i1) (vert h i3)) ∧
  (∀ h u, corner h u ∧ el (face_axis f) u = face_sign f * el (face_axis f) h ↔ u ∈ [vert h i0; vert h i1; vert h i2; vert h i3]) ∧
  (∀ i j, adj4 i j = true → ∃ a b e, l !! i = Some a ∧ l !! j = Some b ∧ box_edge_index a b = Ok e ∧
     (box_edges !! e = Some (a, b) ∨ box_edges !! e = Some (b, a))).
Lemma v3_eq_iff (u w : v3) : u = w ↔ vx u = vx w ∧ vy u = vy w ∧ vz u = vz w.
Proof. split; [intros ->; done|]. intros (? & ? & ?). apply v3_eq; done. Qed.
Ltac face_corners :=
  let h := fresh "h" in let u := fresh "u" in
  intros h u; rewrite !elem_of_cons, elem_of_nil, !v3_eq_iff; unfold box_corner, vert, mul3;
  cbn [nth box_signs vx vy vz el face_axis face_sign];
  rewrite ?Rmult_1_r, ?Rmult_1_l;
  replace (vx h * -1) with (- vx h) by ring; replace (vy h * -1) with (- vy h) by ring; replace (vz h * -1) with (- vz h) by ring;
  replace (-1 * vx h) with (- vx h) by ring; replace (-1 * vy h) with (- vy h) by ring; replace (-1 * vz h) with (- vz h) by ring;
  tauto.
Ltac face_edges :=
  let i := fresh "i" in let j := fresh "j" in let A := fresh "A" in
  intros i j A; destruct i as [|[|[|[|]]]]; destruct j as [|[|[|[|]]]]; try discriminate A;
  do 3 eexists; (split; [reflexivity|]); (split; [reflexivity|]); (split; [vm_compute; reflexivity|]); vm_compute; auto.
Ltac face_tac :=
  eexists; (split; [reflexivity|]); do 4 eexists; (split; [reflexivity|]); (split; [lia|]);
  (split; [let h := fresh "h" in intros h; unfold vert; cbn [nth box_signs]; vec; ring|]);
  (split; [face_corners|face_edges]).
Lemma faces_ok f : (f < 6)%nat → ∃ l, box_faces !! f = Some l ∧ face_ok f l.
Proof.
  intros H. destruct f as [|[|[|[|[|[|f]]]]]]; [face_tac..|lia].
Qed.

(** ** The support feature *)
Lemma support_face_ok d : let f := box_support_face d in
  (f < 6)%nat ∧ (∀ b, Rabs (el b d) <= Rabs (el (face_axis f) d)) ∧ Rabs (el (face_axis f) d) = face_sign f * el (face_axis f) d.
Proof.
  cbv zeta. assert (A : ∀ x, Rabs x = (if rltb x 0 then -1 else 1) * x).
  { intros x. destruct (rltb x 0) eqn:E; [apply rltb_true in E; rewrite Rabs_left by lra; ring|apply rltb_false in E; rewrite Rabs_right by lra; ring]. }
  assert (M : ∀ b, Rabs (el b d) <= Rabs (el (max_index_abs d) d)).
  { intros b. unfold max_index_abs. rcase (Rabs (vx d)) (Rabs (vy d)); [rcase (Rabs (vy d)) (Rabs (vz d))|rcase (Rabs (vx d)) (Rabs (vz d))];
      destruct b; cbn [el]; lra. }
  unfold box_support_face. cbv zeta. set (a := max_index_abs d) in *. clearbody a. specialize (A (el a d)).
  destruct (rltb (el a d) 0); destruct a; cbn [Nat.add face_axis face_sign]; (split; [lia|]); (split; [exact M|]); exact A.
Qed.
Lemma corner_in h u : 0 <= vx h → 0 <= vy h → 0 <= vz h → corner h u → in_box h u.
Proof. intros H1 H2 H3 (C1 & C2 & C3). unfold in_box. lra. Qed.
Lemma abs_prod k x y : Rabs x <= k → x * y <= k * Rabs y.
Proof.
  intros H. pose proof (Rle_abs (x * y)) as A. rewrite Rabs_mult in A. pose proof (Rabs_pos y). nra.
Qed.
Lemma sgn_pick k x : 0 <= k → ∃ y, (y = k ∨ y = - k) ∧ k * Rabs x = y * x.
Proof.
  intros Hk. destruct (Rle_dec 0 x); [exists k; rewrite Rabs_right by lra|exists (- k); rewrite Rabs_left by lra]; (split; [auto|ring]).
Qed.
(** The furthest corner of the supporting face is the furthest point of the box *)
Lemma face_support h d : 0 <= vx h → 0 <= vy h → 0 <= vz h → let f := box_support_face d in
  ∃ u, corner h u ∧ el (face_axis f) u = face_sign f * el (face_axis f) h ∧ ∀ y, in_box h y → dot3 y d <= dot3 u d.
Proof.
  intros H1 H2 H3. cbv zeta. destruct (support_face_ok d) as (_ & _ & S). set (f := box_support_face d) in *. clearbody f.
  destruct (sgn_pick (vx h) (vx d) H1) as (x & Cx & Ex). destruct (sgn_pick (vy h) (vy d) H2) as (y & Cy & Ey). destruct (sgn_pick (vz h) (vz d) H3) as (z & Cz & Ez).
  assert (Sg : face_sign f = 1 ∨ face_sign f = -1). { unfold face_sign. destruct f as [|[|[|[|[|]]]]]; auto. }
  assert (B : ∀ w, in_box h w → vx w * vx d <= vx h * Rabs (vx d) ∧ vy w * vy d <= vy h * Rabs (vy d) ∧ vz w * vz d <= vz h * Rabs (vz d)).
  { intros w (B1 & B2 & B3). split_and!; apply abs_prod; apply Rabs_le; lra. }
  destruct (face_axis f) eqn:Fa; cbn [el] in *.
  - exists (V3 (face_sign f * vx h) y z). unfold box_corner, dot3; cbn [vx vy vz]. split_and!; [|lra..|].
    + destruct Sg as [-> | ->]; lra.
    + intros w Hw. destruct (B w Hw) as (B1 & B2 & B3). replace (face_sign f * vx h * vx d) with (vx h * (face_sign f * vx d)) by ring. rewrite <- S. lra.
  - exists (V3 x (face_sign f * vy h) z). unfold box_corner, dot3; cbn [vx vy vz]. split_and!; [lra| |lra|lra|].
    + destruct Sg as [-> | ->]; lra.
    + intros w Hw. destruct (B w Hw) as (B1 & B2 & B3). replace (face_sign f * vy h * vy d) with (vy h * (face_sign f * vy d)) by ring. rewrite <- S. lra.
  - exists (V3 x y (face_sign f * vz h)). unfold box_corner, dot3; cbn [vx vy vz]. split_and!; [lra|lra| |lra|].
    + destruct Sg as [-> | ->]; lra.
    + intros w Hw. destruct (B w Hw) as (B1 & B2 & B3). replace (face_sign f * vz h * vz d) with (vz h * (face_sign f * vz d)) by ring. rewrite <- S. lra.
Qed.

(** Corners of the face that points most along [d] *)
Definition front (h d u : v3) : Prop :=
  let f := box_support_face d in corner h u ∧ el (face_axis f) u = face_sign f * el (face_axis f) h.
Lemma support_feature_ok h d thr : 0 <= vx h → 0 <= vy h → 0 <= vz h → 0 < thr →
  (∀ u, corner h u → - scalar_max < dot3 u d) →
  ∃ f p vs, box_support_feature h d thr = Ok (f, p) ∧ box_feature_vertices h f = Ok vs ∧
    is_support (in_box h) d p ∧ (∀ v, v ∈ vs → front h d v ∧ p - thr < dot3 v d) ∧ (∃ v, v ∈ vs ∧ dot3 v d = p) ∧
    match f with
    | BVertex _ => ∃ v, vs = [v] ∧ ∀ u, front h d u → u ≠ v → dot3 u d <= p - thr
    | BEdge _ => ∃ v w, vs = [v; w] ∧ (∀ u, front h d u → u ≠ v → u ≠ w → dot3 u d <= dot3 v d ∧ dot3 u d <= dot3 w d) ∧
        ∃ u, front h d u ∧ dot3 u d <= p - thr
    | BFace _ => ∀ u, u ∈ vs ↔ front h d u
    end.
Proof.
  intros H1 H2 H3 Ht Big. unfold box_support_feature, front. destruct (support_face_ok d) as (F6 & _ & _).
  destruct (face_support h d H1 H2 H3) as (best & Bc & Bf & Bm).
  set (f := box_support_face d) in *. destruct (faces_ok f F6) as (l & El & i0 & i1 & i2 & i3 & -> & (L0 & L1 & L2 & L3) & Par & Cor & Edg).
  rewrite El. cbn [opt_res mbind res_bind foldr]. rewrite !box_vertex_eq by done. cbn [mbind res_bind].
  specialize (Par h). specialize (Cor h).
  assert (PAR : dot3 (vert h i0) d + dot3 (vert h i2) d = dot3 (vert h i1) d + dot3 (vert h i3) d).
  { rewrite <- !dot_add_l, Par. done. }
  destruct (pick_ok _ _ _ _ thr PAR Ht (Big _ (vert_corner h i0 L0))) as (m & pick & Ep & PK). rewrite Ep. cbn [mbind res_bind].
  unfold picked in PK. cbv zeta in PK.
  set (P := get4 (dot3 (vert h i0) d) (dot3 (vert h i1) d) (dot3 (vert h i2) d) (dot3 (vert h i3) d)) in *.
  destruct PK as [(M0 & M1 & M2 & M3) PK].
  assert (Idx : ∀ u, (corner h u ∧ el (face_axis f) u = face_sign f * el (face_axis f) h) →
     ∃ k a, (k < 4)%nat ∧ [i0; i1; i2; i3] !! k = Some a ∧ u = vert h a ∧ dot3 u d = P k).
  { intros u Hu. apply Cor in Hu. apply elem_of_cons in Hu as [->|Hu]; [exists 0%nat, i0; split_and!; (lia || done)|].
    apply elem_of_cons in Hu as [->|Hu]; [exists 1%nat, i1; split_and!; (lia || done)|].
    apply elem_of_cons in Hu as [->|Hu]; [exists 2%nat, i2; split_and!; (lia || done)|].
    apply elem_of_list_singleton in Hu as ->. exists 3%nat, i3; split_and!; (lia || done). }
  assert (Pk : ∀ k a, [i0; i1; i2; i3] !! k = Some a → (a < 8)%nat ∧ dot3 (vert h a) d = P k ∧
     corner h (vert h a) ∧ el (face_axis f) (vert h a) = face_sign f * el (face_axis f) h).
  { intros k a Ha. assert (C : vert h a ∈ [vert h i0; vert h i1; vert h i2; vert h i3] ∧ (a < 8)%nat ∧ dot3 (vert h a) d = P k).
    { destruct k as [|[|[|[|k]]]]; cbn in Ha; try (injection Ha as <-); [split_and!; [set_solver|done|done]..|done]. }
    destruct C as (C1 & C2 & C3). apply Cor in C1. tauto. }
  assert (Pm : ∀ k, (k < 4)%nat → P k <= m) by by_four.
  assert (P0 : P 0%nat = dot3 (vert h i0) d) by done. assert (P1 : P 1%nat = dot3 (vert h i1) d) by done.
  assert (P2 : P 2%nat = dot3 (vert h i2) d) by done. assert (P3 : P 3%nat = dot3 (vert h i3) d) by done. clearbody P.
  assert (Sup : ∀ k, (k < 4)%nat → P k = m → is_support (in_box h) d m).
  { intros k Hk Ek. destruct (Idx best (conj Bc Bf)) as (kb & ab & Hkb & _ & _ & Db).
    assert (∃ a, [i0; i1; i2; i3] !! k = Some a) as (a & Ha). { destruct k as [|[|[|[|k]]]]; [eexists; reflexivity..|lia]. }
    destruct (Pk k a Ha) as (_ & Da & Ca & _). split.
    - intros x Hx. specialize (Bm x Hx). specialize (Pm kb Hkb). rewrite Db in Bm. lra.
    - exists (vert h a). split; [apply corner_in; done|lra]. }
  destruct pick as [[|i [|j [|]]]|].
  - done.
  - destruct PK as (Hi & Pi & Po). assert (∃ a, [i0; i1; i2; i3] !! i = Some a) as (a & Ha). { destruct i as [|[|[|[|i]]]]; [eexists; reflexivity..|lia]. }
    destruct (Pk i a Ha) as (a8 & Da & Ca & Fa). cbn [foldr]. rewrite Ha. cbn [opt_res mbind res_bind].
    do 3 eexists. split; [done|]. cbn [box_feature_vertices]. rewrite box_vertex_eq by done. cbn [mbind res_bind].
    split; [done|]. split; [apply (Sup i); done|]. split; [|split].
    + intros v Hv. apply elem_of_list_singleton in Hv as ->. split; [done|]. lra.
    + exists (vert h a). split; [set_solver|lra].
    + exists (vert h a). split; [done|]. intros u Hu Nu. destruct (Idx u Hu) as (k & b & Hk & Hb & -> & ->). apply Po; [done|].
      intros ->. congruence.
  - destruct PK as (Ad & Ti & Tj & Mij & Po & Low). destruct (Edg i j Ad) as (a & b & e & Ha & Hb & Ee & Eb).
    destruct (Pk i a Ha) as (a8 & Da & Ca). destruct (Pk j b Hb) as (b8 & Db & Cb).
    cbn [foldr]. rewrite Ha, Hb. cbn [opt_res mbind res_bind]. rewrite Ee. cbn [mbind res_bind].
    assert (Hi : (i < 4)%nat) by (apply lookup_lt_Some in Ha; done). assert (Hj : (j < 4)%nat) by (apply lookup_lt_Some in Hb; done).
    assert (G : ∃ vs, box_feature_vertices h (BEdge e) = Ok vs ∧ (vs = [vert h a; vert h b] ∨ vs = [vert h b; vert h a])).
    { cbn [box_feature_vertices]. destruct Eb as [-> | ->]; rewrite !box_vertex_eq by done; cbn [mbind res_bind]; eauto. }
    destruct G as (vs & Gv & Gs). do 3 eexists. split; [done|]. split; [exact Gv|].
    split; [destruct Mij; [apply (Sup i)|apply (Sup j)]; done|]. split; [|split].
    + intros v Hv. assert (v = vert h a ∨ v = vert h b) as [-> | ->] by (destruct Gs; subst vs; set_solver); (split; [done|lra]).
    + destruct Mij; [exists (vert h a)|exists (vert h b)]; (split; [destruct Gs; subst vs; set_solver|lra]).
    + assert (Ot : ∀ u, corner h u ∧ el (face_axis f) u = face_sign f * el (face_axis f) h → u ≠ vert h a → u ≠ vert h b →
         dot3 u d <= dot3 (vert h a) d ∧ dot3 u d <= dot3 (vert h b) d).
      { intros u Hu Na Nb. destruct (Idx u Hu) as (k & q & Hk & Hq & -> & ->). rewrite Da, Db. apply Po; [done| |]; intros ->; congruence. }
      assert (Lo : ∃ u, (corner h u ∧ el (face_axis f) u = face_sign f * el (face_axis f) h) ∧ dot3 u d <= m - thr).
      { destruct Low as (k & Hk & Lk). assert (∃ q, [i0; i1; i2; i3] !! k = Some q) as (q & Hq). { destruct k as [|[|[|[|k]]]]; [eexists; reflexivity..|lia]. }
        destruct (Pk k q Hq) as (_ & Dq & Cq). exists (vert h q). split; [done|lra]. }
      destruct Gs as [-> | ->]; do 2 eexists; (split; [reflexivity|]); (split; [|exact Lo]); intros u Hu N1 N2; destruct (Ot u Hu); try done; lra.
  - done.
  - destruct PK as (Mm & T0 & T1 & T2 & T3). do 3 eexists. split; [done|]. cbn [box_feature_vertices]. rewrite El. cbn [foldr].
    rewrite !box_vertex_eq by done. cbn [mbind res_bind]. split; [done|].
    split; [destruct Mm as [Z|[Z|[Z|Z]]]; [apply (Sup 0%nat)|apply (Sup 1%nat)|apply (Sup 2%nat)|apply (Sup 3%nat)]; (lia || congruence)|].
    split; [|split].
    + intros v Hv. split; [apply Cor; done|].
      apply elem_of_cons in Hv as [->|Hv]; [lra|]. apply elem_of_cons in Hv as [->|Hv]; [lra|]. apply elem_of_cons in Hv as [->|Hv]; [lra|].
      apply elem_of_list_singleton in Hv as ->. lra.
    + destruct Mm as [Z|[Z|[Z|Z]]]; eexists; (split; [|symmetry; exact Z]); set_solver.
    + intros u. symmetry. apply Cor.
Qed.

(** Boxes no larger than the greatest number *)
Lemma corner_small h u d : unit3 d → len h < scalar_max → corner h u → - scalar_max < dot3 u d.
Proof.
  intros Hd Hl (C1 & C2 & C3). pose proof (dot_le_len vec0 u d Hd) as L.
  replace (dot3 vec0 d) with 0 in L by (unfold dot3, vec0; cbn [vx vy vz]; ring).
  assert (E : GeoModel.dist vec0 u = len h).
  { unfold GeoModel.dist, len. f_equal. unfold lsq, dot3, sub3, vec0; cbn [vx vy vz].
    destruct C1 as [-> | ->], C2 as [-> | ->], C3 as [-> | ->]; ring. }
  rewrite E in L. lra.
Qed.
Lemma box_plane_ok h n k c : turned c → unit3 n → 0 <= vx h → 0 <= vy h → 0 <= vz h → len h < scalar_max →
  ∃ l, box_plane h n k c = Ok l ∧ plane_contacts (placed (c_posA c) (c_ornA c) (in_box h)) n k 0 c l ∧
    ∀ p, p ∈ l → corner h (p_a p) ∧ ∀ a, placed (c_posA c) (c_ornA c) (in_box h) a → p_dist p < dot3 a n - k + support_tolerance.
Proof.
  intros [TA TB] Hn H1 H2 H3 Hl. unfold box_plane. set (d := rotate (qconj (c_ornA c)) (neg3 n)).
  assert (Hd : unit3 d).
  { unfold unit3, d. rewrite rotate_dot by (apply unit_conj; done). unfold unit3 in Hn. rewrite <- Hn. unfold dot3, neg3; cbn [vx vy vz]. ring. }
  assert (TP : 0 < support_tolerance) by (unfold support_tolerance; lra).
  destruct (support_feature_ok h d support_tolerance H1 H2 H3 TP) as (f & p & vs & E1 & E2 & [S1 S2] & In & (v & Hv & Ev) & _).
  { intros u Hu. apply (corner_small h); done. }
  rewrite E1. cbn [mbind res_bind]. rewrite E2. cbn [mbind res_bind].
  assert (W : ∀ x, dot3 (to_world x (c_posA c) (c_ornA c)) n = dot3 (c_posA c) n - dot3 x d).
  { intros x. pose proof (world_dot x (c_posA c) (c_ornA c) (neg3 n) TA) as E. fold d in E. rewrite !dot_neg in E. lra. }
  assert (G : - (p + dot3 (sub3 (c_posA c) (scl k n)) (neg3 n)) = dot3 (c_posA c) n - p - k).
  { rewrite dot_neg, plane_gap by done. ring. }
  rewrite G. destruct (rltb (c_thr c) (dot3 (c_posA c) n - p - k)) eqn:E.
  { apply rltb_true in E. eexists. split; [done|]. split; [|intros q Hq; inversion Hq]. split_and!; [|intros q Hq; inversion Hq|done].
    split; [|done]. intros _ a (x & Hx & ->). rewrite W. specialize (S1 x Hx). lra. }
  apply rltb_false in E.
  set (point := λ v, let paw := to_world v (c_posA c) (c_ornA c) in let pbw := project_plane paw (scl k n) n in
      CP v (to_object pbw (c_posB c) (c_ornB c)) n (dot3 (sub3 paw pbw) n) AOnB).
  assert (PD : ∀ v, p_dist (point v) = dot3 (c_posA c) n - dot3 v d - k).
  { intros u. unfold point; cbn [p_dist]. rewrite project_diff, dot_scl_l by done. unfold unit3 in Hn. rewrite Hn, W. ring. }
  eexists. split; [done|]. split.
  - split_and!.
    + split; [intros Z; apply map_eq_nil in Z; subst vs; inversion Hv|]. intros Z. exfalso. destruct S2 as (x & Hx & Ex).
      specialize (Z (to_world x (c_posA c) (c_ornA c))). rewrite W in Z. assert (placed (c_posA c) (c_ornA c) (in_box h) (to_world x (c_posA c) (c_ornA c))) as I by (exists x; done).
      specialize (Z I). lra.
    + intros q Hq. apply elem_of_list_fmap in Hq as (u & -> & Hu). fold (point u). split; [done|].
      rewrite PD. unfold world_a, world_b, point; cbn [p_a p_b]. rewrite world_object by done. split_and!.
      * exists u. split; [|done]. apply corner_in; try done. apply In. done.
      * apply project_on. done.
      * rewrite project_diff, W by done. f_equal; ring.
    + intros _. exists (point v). split; [apply elem_of_list_fmap; exists v; done|]. intros a (x & Hx & ->). rewrite PD, W. specialize (S1 x Hx). lra.
  - intros q Hq. apply elem_of_list_fmap in Hq as (u & -> & Hu). fold (point u). destruct (In u Hu) as [[Cu _] Tu]. split; [exact Cu|].
    intros a (x & Hx & ->). rewrite PD, W. specialize (S1 x Hx). lra.
Qed.

Lemma support_feature_spec h d thr : 0 <= vx h → 0 <= vy h → 0 <= vz h → 0 < thr →
  (∀ u, corner h u → - scalar_max < dot3 u d) →
  ∃ f p vs a s, box_support_feature h d thr = Ok (f, p) ∧ box_feature_vertices h f = Ok vs ∧ facing d a s ∧
    is_support (in_box h) d p ∧ (∀ v, v ∈ vs → face_corner h a s v ∧ p - thr < dot3 v d) ∧ (∃ v, v ∈ vs ∧ dot3 v d = p) ∧
    match f with
    | BVertex _ => ∃ v, vs = [v] ∧ ∀ u, face_corner h a s u → u ≠ v → dot3 u d <= p - thr
    | BEdge _ => ∃ v w, vs = [v; w] ∧ (∀ u, face_corner h a s u → u ≠ v → u ≠ w → dot3 u d <= dot3 v d ∧ dot3 u d <= dot3 w d) ∧
        ∃ u, face_corner h a s u ∧ dot3 u d <= p - thr
    | BFace _ => ∀ u, u ∈ vs ↔ face_corner h a s u
    end.
Proof.
  intros H1 H2 H3 Ht Big. destruct (support_feature_ok h d thr H1 H2 H3 Ht Big) as (f & p & vs & X).
  exists f, p, vs, (face_axis (box_support_face d)), (face_sign (box_support_face d)). destruct X as (E1 & E2 & X). split; [done|]. split; [done|].
  split; [|exact X]. destruct (support_face_ok d) as (_ & F1 & F2). split_and!; [| |done].
  - unfold face_sign. destruct (box_support_face d) as [|[|[|[|[|]]]]]; auto.
  - rewrite <- F2. apply Rabs_pos.
Qed.

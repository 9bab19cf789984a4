(** Compounds. *)
From Verif Require Import Outcome BoxModel GeoModel RotSpec RotProofs NearModel NearSpec NearProofs NearProofs2 RayModel RaySpec
  RayProofs2 RayProofs3 RayProps SupModel SupSpec SupProofs SupProofs2 SupProofs3 ColModel ColSpec ColProofs ColProofs2 ColProofs3.
From Coq Require Import Reals Lra Psatz.
Local Open Scope R_scope.

(** ** Places of parts *)
Lemma world_world x npos norn pos orn : qlsq orn = 1 → qlsq norn = 1 →
  to_world (to_world x npos norn) pos orn = to_world x (to_world npos pos orn) (qmul orn norn).
Proof.
  intros H1 H2. unfold to_world. rewrite rotate_mul by done. rewrite rotate_add. vec; ring.
Qed.
Lemma placed_placed npos norn pos orn (S : v3 → Prop) x : qlsq orn = 1 → qlsq norn = 1 →
  placed (to_world npos pos orn) (qmul orn norn) S x ↔ placed pos orn (placed npos norn S) x.
Proof.
  intros H1 H2. split.
  - intros (y & Hy & ->). rewrite <- world_world by done. exists (to_world y npos norn). split; [exists y; done|done].
  - intros (z & (y & Hy & ->) & ->). rewrite world_world by done. exists y. done.
Qed.
Lemma axis_turn a orn norn : qlsq orn = 1 → qlsq norn = 1 → axis_vec_q a (qmul orn norn) = rotate orn (axis_vec_q a norn).
Proof. intros. unfold axis_vec_q. apply rotate_mul; done. Qed.
Lemma world_diff x y pos orn : sub3 (to_world x pos orn) (to_world y pos orn) = rotate orn (sub3 x y).
Proof. unfold to_world. rewrite rotate_sub. vec; ring. Qed.
Lemma world_move x v pos orn : add3 (to_world x pos orn) (rotate orn v) = to_world (add3 x v) pos orn.
Proof. unfold to_world. rewrite rotate_add. vec; ring. Qed.
Lemma world_move' x v pos orn : sub3 (to_world x pos orn) (rotate orn v) = to_world (sub3 x v) pos orn.
Proof. unfold to_world. rewrite rotate_sub. vec; ring. Qed.
Lemma cylinder_turn pos orn c ax r hl x : qlsq orn = 1 →
  cylinder (to_world c pos orn) (rotate orn ax) r hl (to_world x pos orn) ↔ cylinder c ax r hl x.
Proof.
  intros H. unfold cylinder. rewrite world_diff, rotate_dot, <- rotate_scl, world_move, to_world_dist by done. done.
Qed.
Lemma capsule_turn pos orn v0 v1 r x : qlsq orn = 1 →
  capsule (to_world v0 pos orn) (to_world v1 pos orn) r (to_world x pos orn) ↔ capsule v0 v1 r x.
Proof.
  intros H. unfold capsule, on_segment. split.
  - intros (y & (t & Ht & ->) & D). rewrite world_diff, <- rotate_scl, world_move, to_world_dist in D by done. eauto.
  - intros (y & (t & Ht & ->) & D). exists (to_world (add3 v0 (scl t (sub3 v1 v0))) pos orn). split; [|rewrite to_world_dist; done].
    exists t. split; [done|]. rewrite world_diff, <- rotate_scl, world_move. done.
Qed.
Lemma part_place n pos orn x : qlsq orn = 1 → qlsq (sn_orn n) = 1 →
  part_set (sn_shape n) (part_pos n pos orn) (part_orn n orn) x ↔ placed pos orn (node_set n) x.
Proof.
  intros H1 H2. unfold node_set, part_pos, part_orn. destruct (sn_shape n); cbn [part_set].
  - rewrite ball_placed by done. done.
  - apply placed_placed; done.
  - rewrite placed_iff by done. rewrite axis_turn by done. rewrite <- (cylinder_turn pos orn _ _ _ _ (to_object x pos orn)) by done. rewrite world_object by done. done.
  - rewrite placed_iff by done. rewrite axis_turn by done. rewrite <- rotate_scl, world_move, world_move'.
    rewrite <- (capsule_turn pos orn _ _ _ (to_object x pos orn)) by done. rewrite world_object by done. done.
  - apply placed_placed; done.
Qed.

(** ** The points of the parts *)
Lemma part_same_a c n p : turned c → qlsq (sn_orn n) = 1 →
  same_point c (CP (to_world (p_a p) (sn_pos n) (sn_orn n)) (p_b p) (p_normal p) (p_dist p) (p_attach p)) (part_ctx_a c n) p.
Proof.
  intros [TA TB] H. unfold same_point, world_a, world_b, part_ctx_a, part_pos, part_orn; cbn. rewrite world_world by done. done.
Qed.
Lemma part_same_b c n p : turned c → qlsq (sn_orn n) = 1 →
  same_point c (CP (p_a p) (to_world (p_b p) (sn_pos n) (sn_orn n)) (p_normal p) (p_dist p) (p_attach p)) (part_ctx_b c n) p.
Proof.
  intros [TA TB] H. unfold same_point, world_a, world_b, part_ctx_b, part_pos, part_orn; cbn. rewrite world_world by done. done.
Qed.
Lemma collide_parts_cons visited collide n ns c : collide_parts visited collide (n :: ns) c =
  if visited n then l ← collide_part collide c n; l' ← collide_parts visited collide ns c; Ok (l ++ l') else collide_parts visited collide ns c.
Proof. done. Qed.
Lemma collide_parts_ok visited collide nodes c : turned c → (∀ n, n ∈ nodes → qlsq (sn_orn n) = 1) →
  (∀ n, n ∈ nodes → visited n = true → ∃ l, collide (sn_shape n) (part_ctx_a c n) = Ok l) →
  ∃ l, collide_parts visited collide nodes c = Ok l ∧
    (∀ p, p ∈ l → ∃ n ln q, n ∈ nodes ∧ visited n = true ∧ collide (sn_shape n) (part_ctx_a c n) = Ok ln ∧ q ∈ ln ∧ same_point c p (part_ctx_a c n) q) ∧
    (∀ n ln q, n ∈ nodes → visited n = true → collide (sn_shape n) (part_ctx_a c n) = Ok ln → q ∈ ln → ∃ p, p ∈ l ∧ same_point c p (part_ctx_a c n) q).
Proof.
  intros Tc. induction nodes as [|n ns IH]; intros Hn Hc.
  { exists []. split; [done|]. split; intros; set_solver. }
  destruct IH as (l & El & I1 & I2); [intros; apply Hn; set_solver|intros; apply Hc; set_solver|].
  rewrite collide_parts_cons. assert (Hq : qlsq (sn_orn n) = 1) by (apply Hn; set_solver).
  destruct (visited n) eqn:V.
  - destruct (Hc n) as (ln & Eln); [set_solver|done|]. unfold collide_part.
    change (CC (to_world (sn_pos n) (c_posA c) (c_ornA c)) (qmul (c_ornA c) (sn_orn n)) (c_posB c) (c_ornB c) (c_thr c)) with (part_ctx_a c n).
    rewrite Eln. cbn [mbind res_bind]. rewrite El. cbn [mbind res_bind]. eexists. split; [done|]. split.
    + intros p Hp. apply elem_of_app in Hp as [Hp|Hp].
      * apply elem_of_list_fmap in Hp as (q & -> & Hp). exists n, ln, q. split; [set_solver|]. split; [done|]. split; [done|]. split; [done|].
        apply part_same_a; done.
      * destruct (I1 p Hp) as (n' & ln' & q & J1 & J). exists n', ln', q. split; [set_solver|done].
    + intros n' ln' q Hn' V' El' Hq'. apply elem_of_cons in Hn' as [->|Hn'].
      * assert (ln' = ln) as -> by congruence. eexists. split; [apply elem_of_app; left; apply elem_of_list_fmap; exists q; split; [done|exact Hq']|].
        apply part_same_a; done.
      * destruct (I2 n' ln' q Hn' V' El' Hq') as (p & Hp & J). exists p. split; [set_solver|done].
  - exists l. split; [done|]. split.
    + intros p Hp. destruct (I1 p Hp) as (n' & ln' & q & J1 & J). exists n', ln', q. split; [set_solver|done].
    + intros n' ln' q Hn' V' El' Hq'. apply elem_of_cons in Hn' as [->|Hn']; [congruence|]. eauto.
Qed.

(** ** The parts that are left out *)
Lemma meet_false b c : boxes_meet b c = false → ∃ a, el a (bmax c) < el a (bmin b) ∨ el a (bmax b) < el a (bmin c).
Proof.
  unfold boxes_meet. rewrite !andb_false_iff. assert (F : ∀ x y, rleb x y = false → y < x).
  { intros x y E. unfold rleb in E. destruct (Rle_dec x y); [done|lra]. }
  intros [[[H|H]|[H|H]]|[H|H]]; apply F in H; [exists AX|exists AX|exists AY|exists AY|exists AZ|exists AZ]; cbn; auto.
Qed.
Lemma in_el b x a : in_aabb b x → el a (bmin b) <= el a x <= el a (bmax b).
Proof. intros [(A1 & A2 & A3) (B1 & B2 & B3)]. destruct a; cbn; lra. Qed.
Lemma el_dist a x y : Rabs (el a x - el a y) <= GeoModel.dist x y.
Proof.
  assert (U : unit3 (axis_vec a)) by (destruct a; unfold unit3, dot3; cbn; ring).
  pose proof (dot_le_len x y _ U) as D1. pose proof (dot_le_len y x _ U) as D2. rewrite (gdist_sym y x) in D2.
  rewrite <- !el_dot in D1, D2. apply Rabs_le. lra.
Qed.
Lemma inset_el b k a : el a (bmin (inset_box b (- k))) = el a (bmin b) - k ∧ el a (bmax (inset_box b (- k))) = el a (bmax b) + k.
Proof. unfold inset_box; cbn [bmin bmax]. destruct a; cbn; lra. Qed.
Lemma node_box n : node_ok n → encloses (node_aabb n) (node_set n) ∧ valid (node_aabb n).
Proof.
  intros [H1 H2]. pose proof (part_aabb_ok (sn_shape n) (sn_pos n) (sn_orn n) H1 H2) as L. split; [apply L|].
  eapply least_valid; [exact L|]. apply part_nonempty; done.
Qed.
Lemma node_box_world n pos orn : qlsq orn = 1 → node_ok n → encloses (aabb_to_world (node_aabb n) pos orn) (placed pos orn (node_set n)).
Proof.
  intros H Hn. destruct (node_box n Hn) as [E V]. destruct (aabb_to_world_ok (node_aabb n) pos orn H V) as [A _].
  intros x (y & Hy & ->). apply A. exists y. split; [apply E; done|done].
Qed.
Lemma left_out_plane n boxB (B : v3 → Prop) c : turned c → node_ok n → encloses boxB B →
  boxes_meet (inset_box (aabb_to_world (node_aabb n) (c_posA c) (c_ornA c)) (- breaking)) boxB = false →
  apart (placed (c_posA c) (c_ornA c) (node_set n)) B breaking.
Proof.
  intros [TA TB] Hn HB E x b Hx Hb. apply meet_false in E as (a & E). destruct (inset_el (aabb_to_world (node_aabb n) (c_posA c) (c_ornA c)) breaking a) as [I1 I2].
  rewrite I1, I2 in E. apply (node_box_world n _ _ TA Hn) in Hx. apply (in_el _ _ a) in Hx. apply HB, (in_el _ _ a) in Hb.
  pose proof (el_dist a x b) as D. pose proof (Rle_abs (el a x - el a b)). pose proof (Rle_abs (- (el a x - el a b))) as R2. rewrite Rabs_Ropp in R2. lra.
Qed.
Lemma left_out_other n boxB (B : v3 → Prop) c : turned c → node_ok n → encloses boxB B →
  boxes_meet (node_aabb n) (aabb_to_object boxB (c_posA c) (c_ornA c)) = false →
  ∀ x, placed (c_posA c) (c_ornA c) (node_set n) x → ¬ B x.
Proof.
  intros [TA TB] Hn HB E x (y & Hy & ->) Hx. apply HB in Hx as Hb.
  assert (V : valid boxB). { destruct Hb as [(A1 & A2 & A3) (B1 & B2 & B3)]. unfold valid, le3. lra. }
  destruct (aabb_to_object_ok boxB (c_posA c) (c_ornA c) TA V) as [A _]. pose proof (A y Hb) as I2.
  destruct (node_box n Hn) as [I1 _]. apply I1 in Hy. apply meet_false in E as (a & E). apply (in_el _ _ a) in I2, Hy. lra.
Qed.

(** ** Compounds against compounds *)
Lemma turned_part_b c n : turned c → qlsq (sn_orn n) = 1 → turned (part_ctx_b c n).
Proof. intros [TA TB] H. split; [exact TA|]. apply unit_mul; done. Qed.
Lemma same_trans c p c' q c'' r : same_point c p c' q → same_point c' q c'' r → same_point c p c'' r.
Proof. unfold same_point. intros (?&?&?&?&?) (?&?&?&?&?). split_and!; congruence. Qed.
Definition pair_visited (boxB : box) (c : cctx) (n : snode) : bool := boxes_meet (node_aabb n) (aabb_to_object boxB (c_posA c) (c_ornA c)).
Lemma compound_compound_cons collide nodesA n ns boxB c : compound_compound collide nodesA (n :: ns) boxB c =
  l ← compound_other (λ sA c, collide sA (sn_shape n) c) nodesA boxB (part_ctx_b c n);
  l' ← compound_compound collide nodesA ns boxB c;
  Ok (map (λ p, CP (p_a p) (to_world (p_b p) (sn_pos n) (sn_orn n)) (p_normal p) (p_dist p) (p_attach p)) l ++ l').
Proof. done. Qed.
Lemma compound_compound_ok collide nodesA nodesB boxB c : turned c →
  (∀ n, n ∈ nodesA → qlsq (sn_orn n) = 1) → (∀ n, n ∈ nodesB → qlsq (sn_orn n) = 1) →
  (∀ n m, n ∈ nodesA → m ∈ nodesB → ∃ l, collide (sn_shape n) (sn_shape m) (part_ctx_a (part_ctx_b c m) n) = Ok l) →
  ∃ l, compound_compound collide nodesA nodesB boxB c = Ok l ∧
    (∀ p, p ∈ l → ∃ n m ln q, n ∈ nodesA ∧ m ∈ nodesB ∧
       collide (sn_shape n) (sn_shape m) (part_ctx_a (part_ctx_b c m) n) = Ok ln ∧ q ∈ ln ∧ same_point c p (part_ctx_a (part_ctx_b c m) n) q) ∧
    (∀ n m ln q, n ∈ nodesA → m ∈ nodesB → pair_visited boxB c n = true →
       collide (sn_shape n) (sn_shape m) (part_ctx_a (part_ctx_b c m) n) = Ok ln → q ∈ ln → ∃ p, p ∈ l ∧ same_point c p (part_ctx_a (part_ctx_b c m) n) q).
Proof.
  intros Tc HA. induction nodesB as [|m ms IH]; intros HB Hc.
  { exists []. split; [done|]. split; intros; set_solver. }
  destruct IH as (l & El & I1 & I2); [intros; apply HB; set_solver|intros; apply Hc; set_solver|].
  rewrite compound_compound_cons. assert (Hq : qlsq (sn_orn m) = 1) by (apply HB; set_solver).
  pose proof (turned_part_b c m Tc Hq) as Tm.
  destruct (collide_parts_ok (pair_visited boxB (part_ctx_b c m)) (λ sA c, collide sA (sn_shape m) c) nodesA (part_ctx_b c m) Tm HA) as (lm & Em & J1 & J2).
  { intros n Hn _. apply Hc; set_solver. }
  unfold compound_other. change (λ n, boxes_meet (node_aabb n) (aabb_to_object boxB (c_posA (part_ctx_b c m)) (c_ornA (part_ctx_b c m)))) with (pair_visited boxB (part_ctx_b c m)).
  rewrite Em. cbn [mbind res_bind]. rewrite El. cbn [mbind res_bind]. eexists. split; [done|]. split.
  - intros p Hp. apply elem_of_app in Hp as [Hp|Hp].
    + apply elem_of_list_fmap in Hp as (q & -> & Hp). destruct (J1 q Hp) as (n & ln & r & K1 & _ & K2 & K3 & K4).
      exists n, m, ln, r. split; [done|]. split; [set_solver|]. split; [done|]. split; [done|]. eapply same_trans; [|exact K4]. apply part_same_b; done.
    + destruct (I1 p Hp) as (n' & m' & ln' & q & K1 & K2 & K3). exists n', m', ln', q. split; [done|]. split; [set_solver|done].
  - intros n m' ln q Hn Hm' Vn El' Hq'. apply elem_of_cons in Hm' as [->|Hm'].
    + destruct (J2 n ln q Hn Vn El' Hq') as (p & Hp & Sp). eexists. split; [apply elem_of_app; left; apply elem_of_list_fmap; exists p; split; [done|exact Hp]|].
      eapply same_trans; [|exact Sp]. apply part_same_b; done.
    + destruct (I2 n m' ln q Hn Hm' Vn El' Hq') as (p & Hp & K). exists p. split; [set_solver|done].
Qed.

(** Property theorems for the broadphase (C53). *)
From Verif Require Import Outcome TreeModel TreeSpec BoxModel BoxProofs MapModel MapSpec MapProofs
  BroadModel BroadSpec BroadProofs BroadProofs2 BroadProofs3.

Section c53.
Context (G : geom) (ord : gset nat → list nat) (Hord : ∀ s, ord s ≡ₚ elements s).
Notation bw := (bw G).

(** In every history of legal calls, every legal call returns normally. *)
Theorem C53_calls_return w st o :
  breach G ord w st → legal G w o → ∃ w', bstep G ord w o = Ok w'.
Proof using Hord.
  intros [M I]%(breach_inv G ord Hord) L. destruct (step_inv G ord Hord w M st o I L) as (w' & _ & E & _). eauto.
Qed.

(** The multithreaded update gives the same state as the sequential one. *)
Theorem C53_threads_do_not_matter w st sc :
  breach G ord w st → update G ord true sc w = update G ord false sc w.
Proof using Hord.
  intros [M I]%(breach_inv G ord Hord). destruct (update_inv G ord Hord true sc w M st I) as (w' & _ & -> & E & _).
  cbn [negb] in E. by rewrite E.
Qed.

(** After an update, every dynamic body that is awake and enabled is joined to
    every enabled body it should collide with, whose AABB meets its own grown by
    the margin, unless the AABB of that body changed without the body being an
    awake dynamic or kinematic one. *)
Theorem C53_update_finds_pairs w st mt sc w' a b :
  total_order (g_leb G) (g_ltb G) → grows G (g_fat G) →
  breach G ord w st → update G ord mt sc w = Ok w' →
  active G w' a → b ∉ b_dis G w' → sc a b = true → near G (g_off G) w' a b →
  b ∉ st ∨ b ∈ movers G w →
  joined G w' a b.
Proof using Hord.
  intros O Fat [M I]%(breach_inv G ord Hord) E Ha Hd Hs Hn Hst.
  destruct (update_inv G ord Hord mt sc w M st I) as (w2 & M2 & E2 & _ & _ & _ & A & P & K & Of & Ds & _ & _ & C).
  rewrite E in E2. injection E2 as <-. unfold active, near in *. rewrite A, P, Of, Ds in *.
  apply C; [done|done|done|done| |done|done]. set_solver.
Qed.

(** Two bodies that are both free to move are never missed. *)
Theorem C53_moving_bodies_never_missed w st mt sc w' a b :
  total_order (g_leb G) (g_ltb G) → grows G (g_fat G) →
  breach G ord w st → update G ord mt sc w = Ok w' →
  active G w' a → b ∈ movers G w' → sc a b = true → near G (g_off G) w' a b →
  joined G w' a b.
Proof using Hord.
  intros O Fat Hr E Ha Hb Hs Hn.
  pose proof Hr as [M I]%(breach_inv G ord Hord).
  destruct (update_inv G ord Hord mt sc w M st I) as (w2 & M2 & E2 & _ & _ & _ & A & P & K & Of & Ds & _ & _ & _).
  rewrite E in E2. injection E2 as <-. apply (C53_update_finds_pairs w st mt sc w' a b); try done.
  - unfold movers in Hb. rewrite Ds. rewrite Of in Hb. pose proof (bi_dis _ _ _ _ I). set_solver.
  - right. unfold movers in *. by rewrite P, K, Of in Hb.
Qed.

(** An update makes manifolds only for such pairs, keeps the ones that are near
    or not awake, and destroys the others. *)
Theorem C53_update_changes w st mt sc w' m :
  breach G ord w st → update G ord mt sc w = Ok w' →
  match mm_body (b_man G w) !! m with
  | Some (a, b) =>
    (m ∈ b_off G w ∨ near G (g_sep G) w a b → mm_body (b_man G w') !! m = Some (a, b)) ∧
    (m ∉ b_off G w → ¬ near G (g_sep G) w a b → mm_body (b_man G w') !! m = None)
  | None =>
    ∀ a b, mm_body (b_man G w') !! m = Some (a, b) →
      active G w a ∧ b ∉ b_dis G w ∧ sc a b = true ∧ near G (g_off G) w a b
  end.
Proof using Hord.
  intros [M I]%(breach_inv G ord Hord) E.
  destruct (update_inv G ord Hord mt sc w M st I) as (w2 & M2 & E2 & _ & _ & _ & _ & _ & _ & _ & _ & Kp & New & _).
  rewrite E in E2. injection E2 as <-. destruct (mm_body (b_man G w) !! m) as [[a b]|] eqn:Em.
  - by apply Kp.
  - intros a b Hab. by apply (New m).
Qed.

(** So after an update the bodies of every awake manifold are near. *)
Lemma near_wider v u (w : bw) a b :
  total_order (g_leb G) (g_ltb G) → wider G v u → near G u w a b → near G v w a b.
Proof.
  intros O Hw (ba & bb & Ha & Hb & Ht). exists ba, bb. split_and!; try done.
  eapply (intersect_mono _ _ O); [|exact Ht]. split; split_and!; cbn; apply Hw.
Qed.
Theorem C53_manifolds_are_near w st mt sc w' m a b :
  total_order (g_leb G) (g_ltb G) → wider G (g_sep G) (g_off G) →
  breach G ord w st → update G ord mt sc w = Ok w' →
  mm_body (b_man G w') !! m = Some (a, b) → m ∉ b_off G w' → near G (g_sep G) w' a b.
Proof using Hord.
  intros O Hw Hr E Hm Ho. pose proof (C53_update_changes w st mt sc w' m Hr E) as H.
  pose proof Hr as [M I]%(breach_inv G ord Hord).
  destruct (update_inv G ord Hord mt sc w M st I) as (w2 & M2 & E2 & _ & _ & _ & A & _ & _ & Of & _ & _).
  rewrite E in E2. injection E2 as <-. rewrite (near_eq _ _ w w') by done. rewrite Of in Ho.
  destruct (mm_body (b_man G w) !! m) as [[x y]|] eqn:Em.
  - destruct H as [H1 H2].
    assert (Hdec : near G (g_sep G) w x y ∨ ¬ near G (g_sep G) w x y).
    { unfold near. destruct (b_aabb G w !! x) as [bx|] eqn:Ex; [|right; intros (?&?&?&?&?); congruence].
      destruct (b_aabb G w !! y) as [b0|] eqn:Ey; [|right; intros (?&?&?&?&?); congruence].
      destruct (touch G (bx_inset (g_add G) (g_sub G) bx (g_sep G)) b0) eqn:Et; [left; by exists bx, b0|].
      right. intros (?&?&?&?&?). congruence. }
    destruct Hdec as [Hn|Hn]; [|rewrite H2 in Hm; done].
    rewrite H1 in Hm; [|by right]. by injection Hm as <- <-.
  - destruct (H a b Hm) as (_ & _ & _ & Hn). by eapply near_wider.
Qed.

(** In every reachable state, two bodies have at most one manifold. *)
Theorem C53_one_manifold_per_pair w st m m' a b :
  breach G ord w st →
  mm_body (b_man G w) !! m = Some (a, b) →
  mm_body (b_man G w) !! m' = Some (a, b) ∨ mm_body (b_man G w) !! m' = Some (b, a) → m = m'.
Proof using Hord.
  intros [M I]%(breach_inv G ord Hord) Hm [Hm'|Hm'].
  - eapply (mr_uniq _ _ (bi_man _ _ _ _ I)); [done..|]. by left.
  - eapply (mr_uniq _ _ (bi_man _ _ _ _ I)); [done..|]. by right.
Qed.

(** A query returns each body at most once, of the wanted kind, and misses none
    whose AABB meets the box, once the body is in the tree and unless its AABB
    changed behind the tree's back. *)
Theorem C53_query w st p q :
  total_order (g_leb G) (g_ltb G) → grows G (g_fat G) → breach G ord w st →
  ∃ l, query G w p q = Ok l ∧ NoDup l ∧
    (∀ e, e ∈ l → is_Some (b_aabb G w !! e) ∧ (e ∈ b_proc G w ↔ p = true)) ∧
    (∀ e b, b_aabb G w !! e = Some b → e ∉ b_new G w → e ∉ st → (e ∈ b_proc G w ↔ p = true) →
       touch G b q = true → e ∈ l).
Proof using Hord. intros O Fat [M I]%(breach_inv G ord Hord). by apply (query_inv G w M st). Qed.
End c53.

(** ** Cases, in exact integer arithmetic with the unit a thousandth *)
Definition ZG : geom := Geom Z Z.leb Z.ltb Z.add Z.sub Z.mul 2%Z (V3 (-100) (-100) (-100))%Z (V3 (-20) (-20) (-20))%Z
  (V3 (-26) (-26) (-26))%Z (Box (V3 0 0 0) (V3 0 0 0))%Z.
Definition ordz (s : gset nat) : list nat := elements s.
Lemma ordz_ok s : ordz s ≡ₚ elements s.
Proof. done. Qed.
Lemma ZG_order : total_order (g_leb ZG) (g_ltb ZG).
Proof. exact Z_total_order. Qed.
Lemma ZG_grows : grows ZG (g_fat ZG).
Proof. intros x. cbn. rewrite !Z.leb_le. lia. Qed.
Lemma ZG_wider : wider ZG (g_sep ZG) (g_off ZG).
Proof. intros x. cbn. rewrite !Z.leb_le. lia. Qed.

(** A box of side 1000 at [x] *)
Definition cube (x : Z) : aabb Z := Box (V3 x 0 0)%Z (V3 (x + 1000) 1000 1000)%Z.
Definition all (a b : nat) : bool := negb (Nat.eqb a b).

(** Legality and staleness computed along a run *)
Definition legal_b (w : bw ZG) (o : bop ZG) : bool :=
  let man m := bool_decide (is_Some (mm_body (b_man ZG w) !! m)) in
  match o with
  | AddShape _ e _ => bool_decide (e ∈ b_valid ZG w) && bool_decide (b_aabb ZG w !! e = None) &&
      bool_decide (e ∉ b_new ZG w) && negb (man e)
  | DropShape _ e => bool_decide (is_Some (b_aabb ZG w !! e)) &&
      forallb (λ kv : nat * (nat * nat), negb (Nat.eqb kv.2.1 e) && negb (Nat.eqb kv.2.2 e)) (map_to_list (mm_body (b_man ZG w)))
  | DelBody _ e | SetKind _ e _ => bool_decide (e ∈ b_valid ZG w) && negb (man e)
  | SetAabb _ e _ => bool_decide (is_Some (b_aabb ZG w !! e))
  | DelManifold _ m | SwapManifold _ m => man m
  | _ => true
  end.
Lemma legal_b_ok w o : legal_b w o = true → legal ZG w o.
Proof.
  assert (Man : ∀ m, negb (bool_decide (is_Some (mm_body (b_man ZG w) !! m))) = true → ¬ is_manifold ZG w m).
  { intros m. rewrite negb_true_iff, bool_decide_eq_false. done. }
  destruct o; cbn [legal_b legal]; rewrite ?andb_true_iff, ?bool_decide_eq_true; try done; try (intros [? ?]; auto; fail).
  - intros (((?&?)&?)&?). auto.
  - intros [? H]. split; [done|]. intros m a b Hab. rewrite forallb_forall in H.
    specialize (H (m, (a, b))). cbn in H. rewrite andb_true_iff, !negb_true_iff, !Nat.eqb_neq in H. apply H.
    apply elem_of_list_In. by apply elem_of_map_to_list.
Qed.
Fixpoint grun (w : bw ZG) (st : gset nat) (os : list (bop ZG)) : option (bw ZG * gset nat) :=
  match os with
  | [] => Some (w, st)
  | o :: os =>
    if legal_b w o then match bstep ZG ordz w o with Ok w' => grun w' (stale_step ZG w st o) os | _ => None end else None
  end.
Lemma grun_reach os : ∀ w st w' st', breach ZG ordz w st → grun w st os = Some (w', st') → breach ZG ordz w' st'.
Proof.
  induction os as [|o os IH]; intros w st w' st' Hr; cbn [grun]; [by intros [= <- <-]|].
  destruct (legal_b w o) eqn:L; [|done]. destruct (bstep ZG ordz w o) as [w1| | |] eqn:E; try done.
  apply IH. eapply br_step; [done|by apply legal_b_ok|done].
Qed.

(** The bodies of the manifolds after a run *)
Definition pairs_after (os : list (bop ZG)) : option (list (nat * (nat * nat))) :=
  match grun (b_empty ZG) ∅ os with Some (w, _) => Some (map_to_list (mm_body (b_man ZG w))) | None => None end.
Definition upd_ (mt : bool) : bop ZG := Update ZG mt all.
Definition newb (k : kind) (x : Z) : bop ZG := NewBody ZG k (Some (cube x)).

(** Three dynamic bodies and a floor: 0 and 1 touch within the margin, 2 is away;
    then 2 moves next to 1 and 0 moves away. *)
Definition run1 : list (bop ZG) :=
  [newb Dynamic 0; newb Dynamic 1015; newb Dynamic 5000; newb Static 0; upd_ false].
Example run1_pairs : pairs_after run1 = Some [(5, (0, 3)); (4, (0, 1)); (6, (1, 3))].
Proof. vm_compute. reflexivity. Qed.
Definition run2 : list (bop ZG) :=
  run1 ++ [SetAabb ZG 2 (cube 2000); SetAabb ZG 0 (cube (-1011)%Z); upd_ true].
Example run2_pairs : pairs_after run2 = Some [(7, (1, 2)); (5, (0, 3)); (6, (1, 3))].
Proof. vm_compute. reflexivity. Qed.
(** More than eight awake dynamic bodies: the parallel path *)
Definition row : list (bop ZG) := map (λ i, newb Dynamic (1010 * Z.of_nat i)%Z) (seq 0 10).
Example row_pairs : pairs_after (row ++ [upd_ true]) = pairs_after (row ++ [upd_ false]) ∧
  length <$> pairs_after (row ++ [upd_ true]) = Some 9.
Proof. vm_compute. split; reflexivity. Qed.
(** Kind changes, sleep, removal of bodies and of shapes, queries *)
Definition run3 : list (bop ZG) :=
  run2 ++ [SetKind ZG 0 Kinematic; SetTags ZG {[2]} {[1]}; SetAabb ZG 0 (cube 2500); upd_ false; SetTags ZG ∅ ∅;
           DelManifold ZG 7; upd_ false; SwapManifold ZG 8; DelBody ZG 1; SetAabb ZG 3 (cube 9000); upd_ true].
Example run3_pairs : pairs_after run3 = Some [(9, (2, 0))].
Proof. vm_compute. reflexivity. Qed.
Example run3_query : (match grun (b_empty ZG) ∅ run3 with
  | Some (w, st) => (query ZG w true (cube 2100), query ZG w false (cube 2100), elements st) | None => (UB, UB, []) end)
  = (Ok [2], Ok [0], [3]).
Proof. vm_compute. reflexivity. Qed.

(** ** What is false *)
(** Legal calls and then a call [o] that returns, after which every update is
    undefined *)
Definition ub_after (os : list (bop ZG)) (o : bop ZG) : bool :=
  match grun (b_empty ZG) ∅ os with
  | Some (w, _) => match bstep ZG ordz w o with
    | Ok w' => match (w1 ← init_new ZG w'; destroy_separated ZG ordz w1) with UB => true | _ => false end
    | _ => false end
  | None => false end.
Lemma ub_after_ok os o : ub_after os o = true →
  ∃ w st w', breach ZG ordz w st ∧ bstep ZG ordz w o = Ok w' ∧ ∀ mt sc, update ZG ordz mt sc w' = UB.
Proof.
  unfold ub_after. destruct (grun (b_empty ZG) ∅ os) as [[w st]|] eqn:Er; [|discriminate].
  destruct (bstep ZG ordz w o) as [w'| | |] eqn:Es; try discriminate. intros E.
  exists w, st, w'. split; [apply (grun_reach _ _ _ _ _ (br_empty _ _) Er)|]. split; [exact Es|]. intros mt sc. unfold update.
  destruct (init_new ZG w') as [w1| | |]; cbn [mbind res_bind] in *; try discriminate; [|reflexivity].
  destruct (destroy_separated ZG ordz w1); try discriminate. reflexivity.
Qed.

(** Removing the shape of a body that has a manifold makes the next update read an
    AABB that is not there. *)
Definition shape_removed : list (bop ZG) := [newb Dynamic 0; newb Static 500; upd_ false].
Theorem C53_removed_shape_is_forgotten_refuted :
  ∃ w st w', breach ZG ordz w st ∧ bstep ZG ordz w (DropShape ZG 0) = Ok w' ∧ ∀ mt sc, update ZG ordz mt sc w' = UB.
Proof. apply (ub_after_ok shape_removed). vm_compute. reflexivity. Qed.
(** Giving a body a shape, taking it away and giving it one again between two
    updates makes the next update put it in the tree twice. *)
Definition shape_again : list (bop ZG) := [NewBody ZG Dynamic None; AddShape ZG 0 (cube 0); DropShape ZG 0].
Theorem C53_shape_may_be_changed_before_update_refuted :
  ∃ w st w', breach ZG ordz w st ∧ bstep ZG ordz w (AddShape ZG 0 (cube 0)) = Ok w' ∧ ∀ mt sc, update ZG ordz mt sc w' = UB.
Proof. apply (ub_after_ok shape_again). vm_compute. reflexivity. Qed.
(** A static body whose AABB moved into an awake dynamic body gets no manifold,
    nor does an awake kinematic body that moved into a sleeping dynamic one. *)
Definition near_b (w : bw ZG) (a b : nat) : bool :=
  match b_aabb ZG w !! a, b_aabb ZG w !! b with
  | Some x, Some y => touch ZG (bx_inset Z.add Z.sub x (g_off ZG)) y | _, _ => false end.
Definition joined_b (w : bw ZG) (a b : nat) : bool :=
  existsb (λ kv : nat * (nat * nat), bool_decide (kv.2 = (a, b)) || bool_decide (kv.2 = (b, a))) (map_to_list (mm_body (b_man ZG w))).
Lemma near_b_ok w a b : near_b w a b = true → near ZG (g_off ZG) w a b.
Proof.
  unfold near_b, near. destruct (b_aabb ZG w !! a) as [x|] eqn:E1; [|done]. destruct (b_aabb ZG w !! b) as [y|] eqn:E2; [|done].
  intros H. exists x, y. done.
Qed.
Lemma joined_b_no w a b : joined_b w a b = false → ¬ joined ZG w a b.
Proof.
  unfold joined_b. intros H [m Hm]. apply not_true_iff_false in H. apply H, existsb_exists. destruct Hm as [Hm|Hm].
  - exists (m, (a, b)). split; [by apply elem_of_list_In, elem_of_map_to_list|]. cbn. by rewrite bool_decide_eq_true_2.
  - exists (m, (b, a)). split; [by apply elem_of_list_In, elem_of_map_to_list|]. cbn.
    rewrite orb_true_iff. right. by apply bool_decide_eq_true_2.
Qed.
Definition static_moved : list (bop ZG) :=
  [newb Dynamic 0; newb Static 5000; upd_ false; SetAabb ZG 1 (cube 500)].
Definition missed (os : list (bop ZG)) (a b : nat) : bool :=
  match grun (b_empty ZG) ∅ os with
  | Some (w, _) => match update ZG ordz false all w with
    | Ok w' => bool_decide (a ∈ b_proc ZG w') && bool_decide (a ∉ b_off ZG w') && bool_decide (b ∉ b_dis ZG w') &&
       near_b w' a b && negb (joined_b w' a b)
    | _ => false end
  | None => false end.
Theorem C53_moved_static_bodies_collide_refuted :
  ∃ w st w' a b, breach ZG ordz w st ∧ update ZG ordz false all w = Ok w' ∧
    active ZG w' a ∧ b ∉ b_dis ZG w' ∧ all a b = true ∧ near ZG (g_off ZG) w' a b ∧ ¬ joined ZG w' a b.
Proof.
  assert (E : missed static_moved 0 1 = true) by (vm_compute; reflexivity). unfold missed in E.
  destruct (grun (b_empty ZG) ∅ static_moved) as [[w st]|] eqn:Er; [|discriminate E].
  destruct (update ZG ordz false all w) as [w'| | |] eqn:Eu; try discriminate E.
  rewrite !andb_true_iff, !bool_decide_eq_true, negb_true_iff in E. destruct E as ((((Hp & Ho) & Hd) & Hn) & Hj).
  apply (grun_reach _ _ _ _ _ (br_empty _ _)) in Er.
  exists w, st, w', 0, 1. split; [exact Er|]. clear Er. split; [exact Eu|]. clear Eu. split_and!.
  - apply near_b_ok in Hn as (x & _ & Hx & _). split; [done|]. split; [done|]. by eexists.
  - done.
  - done.
  - by apply near_b_ok.
  - by apply joined_b_no.
Qed.
Definition kinematic_into_sleeping : list (bop ZG) :=
  [newb Dynamic 0; newb Kinematic 5000; upd_ false; SetTags ZG {[0]} ∅; SetAabb ZG 1 (cube 500)].
Definition missed_sleeping (os : list (bop ZG)) (a b : nat) : bool :=
  match grun (b_empty ZG) ∅ os with
  | Some (w, _) => match update ZG ordz false all w with
    | Ok w' => bool_decide (a ∈ b_proc ZG w') && bool_decide (b ∈ movers ZG w') && bool_decide (a ∉ b_dis ZG w') &&
       near_b w' a b && negb (joined_b w' a b)
    | _ => false end
  | None => false end.
Theorem C53_kinematic_meets_sleeping_body_refuted :
  ∃ w st w' a b, breach ZG ordz w st ∧ update ZG ordz false all w = Ok w' ∧
    a ∈ b_proc ZG w' ∧ b ∈ movers ZG w' ∧ a ∉ b_dis ZG w' ∧ near ZG (g_off ZG) w' a b ∧ ¬ joined ZG w' a b.
Proof.
  assert (E : missed_sleeping kinematic_into_sleeping 0 1 = true) by (vm_compute; reflexivity). unfold missed_sleeping in E.
  destruct (grun (b_empty ZG) ∅ kinematic_into_sleeping) as [[w st]|] eqn:Er; [|discriminate E].
  destruct (update ZG ordz false all w) as [w'| | |] eqn:Eu; try discriminate E.
  rewrite !andb_true_iff, !bool_decide_eq_true, negb_true_iff in E. destruct E as ((((Hp & Ho) & Hd) & Hn) & Hj).
  apply (grun_reach _ _ _ _ _ (br_empty _ _)) in Er.
  exists w, st, w', 0, 1. split; [exact Er|]. clear Er. split; [exact Eu|]. clear Eu. split_and!; try done.
  - by apply near_b_ok.
  - by apply joined_b_no.
Qed.

Print Assumptions C53_calls_return.
Print Assumptions C53_threads_do_not_matter.
Print Assumptions C53_update_finds_pairs.
Print Assumptions C53_moving_bodies_never_missed.
Print Assumptions C53_update_changes.
Print Assumptions C53_manifolds_are_near.
Print Assumptions C53_one_manifold_per_pair.
Print Assumptions C53_query.
Print Assumptions C53_removed_shape_is_forgotten_refuted.
Print Assumptions C53_shape_may_be_changed_before_update_refuted.
Print Assumptions C53_moved_static_bodies_collide_refuted.
Print Assumptions C53_kinematic_meets_sleeping_body_refuted.

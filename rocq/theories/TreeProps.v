(** Property theorems for dynamic_tree (C07, C08, C09). *)
From Verif Require Import Outcome Chain TreeModel TreeSpec TreeProofs TreeProofs2 TreeHist BoxModel BoxProofs.
From Coq Require Import QArith.
Local Close Scope Q_scope.

(** ** C07: any boxes, any cost arithmetic, no law assumed *)
Section c07.
Context {box scalar : Type}.
Context (enclose : box → box → box) (inset : box → box) (contains : box → box → bool).
Context (area : box → scalar) (s_add s_sub s_mul : scalar → scalar → scalar)
        (s_two : scalar) (s_lt : scalar → scalar → bool) (box0 : box).
Notation create := (create enclose inset area s_add s_sub s_mul s_two s_lt box0).
Notation destroy := (destroy enclose).
Notation move := (move enclose inset contains area s_add s_sub s_mul s_two s_lt box0).
Notation treach := (treach enclose inset contains area s_add s_sub s_mul s_two s_lt box0).

Lemma treach_inv_any T m : treach T m → tinv (λ _ _, True) T m.
Proof. by apply treach_inv. Qed.

Theorem C07_tree_holds_live_leaves T m : treach T m → tree_ok (λ _ _, True) T m.
Proof. intros H. by apply tinv_ok, treach_inv_any. Qed.

(** Every call in every reachable state returns normally, i.e. none loops
    forever, fails an assertion or reads out of bounds. *)
Theorem C07_calls_return T m :
  treach T m →
  (∀ b e, ∃ T' id, create T b e = Ok (T', id) ∧ m !! id = None) ∧
  (∀ id lf, m !! id = Some lf → ∃ T', destroy T id = Ok T') ∧
  (∀ id lf b, m !! id = Some lf → ∃ T' r, move T id b = Ok (T', r)) ∧
  (∀ test, ∃ l, traverse_tree T test = Ok l ∧ NoDup l ∧ ∀ i, i ∈ l → is_Some (m !! i)).
Proof.
  intros H%treach_inv_any. split_and!.
  - intros b e. destruct (tinv_create enclose inset area s_add s_sub s_mul s_two s_lt box0 (λ _ _, True)
      (λ _ _, I) (λ _ _, I) (λ _, I) T m b e H) as (T' & id & ? & ? & _). eauto.
  - intros id lf Hid. destruct (tinv_destroy enclose (λ _ _, True) (λ _ _, I) (λ _ _, I) T m id lf H Hid)
      as (T' & ? & _). eauto.
  - intros id lf b Hid. destruct (tinv_move enclose inset contains area s_add s_sub s_mul s_two s_lt box0
      (λ _ _, True) (λ _ _, I) (λ _ _, I) (λ _, I) (λ _ _ _, I) T m id lf b H Hid) as (T' & ? & _). eauto.
  - intros test. destruct (traverse_spec _ T m test H) as (l & ? & ? & Hl & _). exists l.
    split_and!; try done. intros i Hi. destruct (Hl i Hi) as (lf & ? & _). eauto.
Qed.

(** C09: what move returns and does. *)
Theorem C09_move T m id lf b :
  treach T m → m !! id = Some lf →
  ∃ T', move T id b = Ok (T', negb (contains (lf_box lf) b)) ∧
    (contains (lf_box lf) b = true → T' = T) ∧
    (contains (lf_box lf) b = false →
      (∃ n, get_node T' id = Ok n ∧ tn_box n = inset b ∧ tn_c2 n = lf_ent lf)) ∧
    (∀ j lf', j ≠ id → m !! j = Some lf' →
      ∃ n, get_node T' j = Ok n ∧ tn_box n = lf_box lf' ∧ tn_c2 n = lf_ent lf').
Proof.
  intros H%treach_inv_any Hid. destruct (tinv_move enclose inset contains area s_add s_sub s_mul s_two s_lt box0
      (λ _ _, True) (λ _ _, I) (λ _ _, I) (λ _, I) (λ _ _ _, I) T m id lf b H Hid) as (T' & Hm & Hsame & Hi).
  exists T'. split_and!; try done.
  - intros Hc. rewrite Hc in Hi. destruct (ti_leaf _ _ _ Hi id _ (lookup_insert _ _ _)) as (n & Hn & _ & ? & ?).
    exists n. unfold get_node. rewrite (nget_ok _ _ _ Hn). done.
  - intros j lf' Hne Hj. destruct (ti_leaf _ _ _ Hi j lf') as (n & Hn & _ & ? & ?).
    { by rewrite lookup_insert_ne. }
    exists n. unfold get_node. rewrite (nget_ok _ _ _ Hn). done.
Qed.
End c07.

(** ** C08: boxes over a total order *)
Section c08.
Context {R : Type} (leb ltb : R → R → bool) (add sub mul : R → R → R) (two : R) (fat : vec R) (box0 : aabb R).
Context (O : total_order leb ltb).
(** adding the (negative) inset to a coordinate does not increase it, and
    subtracting it does not decrease it *)
Context (fat_ok : ∀ x, leb (add x (vx fat)) x = true ∧ leb x (sub x (vx fat)) = true ∧
  leb (add x (vy fat)) x = true ∧ leb x (sub x (vy fat)) = true ∧
  leb (add x (vz fat)) x = true ∧ leb x (sub x (vz fat)) = true).
Notation inset := (λ b, bx_inset add sub b fat).
Notation treach := (treach (bx_enclose ltb) inset (bx_contains leb) (bx_area add sub mul two)
                           add sub mul two ltb box0).
Notation move := (move (bx_enclose ltb) inset (bx_contains leb) (bx_area add sub mul two)
                           add sub mul two ltb box0).

Lemma treach_inv_box T m : treach T m → tinv (box_in leb) T m.
Proof using O fat_ok.
  apply treach_inv.
  - apply (enclose_l _ _ O).
  - apply (enclose_r _ _ O).
  - intros b. apply inset_in; intros x; split; apply fat_ok.
  - intros a b. apply contains_in.
Qed.

Theorem C08_boxes_enclose T m : treach T m → tree_ok (box_in leb) T m.
Proof using O fat_ok. intros H. by apply tinv_ok, treach_inv_box. Qed.

Theorem C08_query_exact T m q :
  treach T m →
  ∃ l, traverse_tree T (λ b, bx_intersect leb b q) = Ok l ∧ NoDup l ∧
    ∀ i, i ∈ l ↔ ∃ lf, m !! i = Some lf ∧ bx_intersect leb (lf_box lf) q = true.
Proof using O fat_ok.
  intros H%treach_inv_box. destruct (traverse_spec _ T m (λ b, bx_intersect leb b q) H) as (l & ? & ? & Hs & Hc).
  exists l. split_and!; try done. intros i. split; [apply Hs|]. intros (lf & Hi & Ht).
  eapply Hc; [|done|done]. intros a b. by apply (intersect_mono _ _ O).
Qed.

(** An object whose last given box touches the query box is always visited. *)
Theorem C08_query_misses_nothing T m q l i lf :
  treach T m → traverse_tree T (λ b, bx_intersect leb b q) = Ok l →
  m !! i = Some lf → bx_intersect leb (lf_given lf) q = true → i ∈ l.
Proof using O fat_ok.
  intros H Hl Hi Ht. destruct (C08_query_exact T m q H) as (l' & Hl' & _ & Hex).
  rewrite Hl in Hl'. simplify_eq. apply Hex. exists lf. split; [done|].
  eapply (intersect_mono _ _ O); [|done]. eapply (ti_given _ _ _ (treach_inv_box _ _ H)). done.
Qed.

(** C09: after a move that reports a change the stored box contains the given
    one; after one that does not, it did already. *)
Theorem C09_stored_contains_given T m id lf b T' r :
  treach T m → m !! id = Some lf → move T id b = Ok (T', r) →
  ∃ n, get_node T' id = Ok n ∧ box_in leb b (tn_box n).
Proof using O fat_ok.
  intros H Hid Hm. pose proof (tr_move _ _ _ _ _ _ _ _ _ _ _ _ _ _ _ _ _ H Hid Hm) as H'.
  apply treach_inv_box in H'.
  destruct (ti_leaf _ _ _ H' id _ (lookup_insert _ _ _)) as (n & Hn & _ & _ & Hb).
  exists n. unfold get_node. rewrite (nget_ok _ _ _ Hn), Hb. split; [done|].
  exact (ti_given _ _ _ H' id _ (lookup_insert _ _ _)).
Qed.
End c08.

(** Raycasts, in exact arithmetic. *)
Section ray.
Context (mul : Q → Q → Q) (fat : vec Q) (box0 : aabb Q) (eps : Q).
Context (Heps : (0 <= eps)%Q) (Hfat : (vx fat <= 0 ∧ vy fat <= 0 ∧ vz fat <= 0)%Q).
Notation ltb := (λ a b, negb (Qle_bool b a)).
Notation treach := (treach (bx_enclose ltb) (λ b, bx_inset Qplus Qminus b fat) (bx_contains Qle_bool)
   (bx_area Qplus Qminus mul 2%Q) Qplus Qminus mul 2%Q ltb box0).

Lemma treach_inv_Q T m : treach T m → tinv (box_in Qle_bool) T m.
Proof using Hfat.
  apply treach_inv_box; [apply Q_total_order|]. intros x. rewrite !Qle_bool_iff. destruct Hfat as (?&?&?).
  split_and!; Lqa.lra.
Qed.

Theorem C08_raycast_exact T m p0 p1 :
  treach T m →
  ∃ l, traverse_tree T (seg_box eps p0 p1) = Ok l ∧ NoDup l ∧
    ∀ i, i ∈ l ↔ ∃ lf, m !! i = Some lf ∧ seg_box eps p0 p1 (lf_box lf) = true.
Proof using Hfat Heps.
  intros H%treach_inv_Q. destruct (traverse_spec _ T m (seg_box eps p0 p1) H) as (l & ? & ? & Hs & Hc).
  exists l. split_and!; try done. intros i. split; [apply Hs|]. intros (lf & Hi & Ht).
  eapply Hc; [|done|done]. intros a b. by apply seg_mono.
Qed.

(** Every leaf whose stored box has a point on the segment is visited. *)
Theorem C08_raycast_misses_nothing T m p0 p1 l i lf t :
  treach T m → traverse_tree T (seg_box eps p0 p1) = Ok l → m !! i = Some lf →
  (0 <= t <= 1)%Q → bx_contains_pt Qle_bool (lf_box lf) (on_seg p0 p1 t) = true → i ∈ l.
Proof using Hfat Heps.
  intros H Hl Hi Ht Hp. destruct (C08_raycast_exact T m p0 p1 H) as (l' & Hl' & _ & Hex).
  rewrite Hl in Hl'. simplify_eq. apply Hex. exists lf. split; [done|]. by eapply seg_sound.
Qed.
End ray.

(** ** A concrete history over Z: five leaves, a move that reinserts, one that
    does not, a destroy and a reuse of its slots. *)
Definition zbox (a b : Z) : aabb Z := Box (V3 a a a) (V3 b b b).
Definition zfat : vec Z := V3 (-1)%Z (-1)%Z (-1)%Z.
Definition zrun := trun (bx_enclose Z.ltb) (λ b, bx_inset Z.add Z.sub b zfat) (bx_contains Z.leb)
  (bx_area Z.add Z.sub Z.mul 2%Z) Z.add Z.sub Z.mul 2%Z Z.ltb (zbox 0 0) (t_empty, ∅).
Definition zops : list (top_ (aabb Z)) :=
  [OCreate (zbox 0 2) (Some 10); OCreate (zbox 5 7) (Some 11); OCreate (zbox 6 9) (Some 12);
   OCreate (zbox 20 22) (Some 13); OCreate (zbox 21 25) (Some 14);
   OMove 0 (zbox 1 3); OMove 0 (zbox 30 32); ODestroy 1; OCreate (zbox 8 8) (Some 15)].
Example C07_case :
  ∃ T m, zrun zops = Ok (T, m) ∧
    treach (bx_enclose Z.ltb) (λ b, bx_inset Z.add Z.sub b zfat) (bx_contains Z.leb)
      (bx_area Z.add Z.sub Z.mul 2%Z) Z.add Z.sub Z.mul 2%Z Z.ltb (zbox 0 0) T m ∧
    traverse_tree T (λ b, bx_intersect Z.leb b (zbox 7 10)) = Ok [1; 3] ∧
    traverse_tree T (λ b, bx_intersect Z.leb b (zbox 0 4)) = Ok [].
Proof.
  destruct (zrun zops) as [[T m]| | |] eqn:E; try (vm_compute in E; discriminate).
  exists T, m. split; [done|]. split.
  { refine (trun_reach _ _ _ _ _ _ _ _ _ _ _ _ (T, m) _ E). apply tr_empty. }
  vm_compute in E. injection E as <- <-. split; vm_compute; reflexivity.
Qed.

Print Assumptions C07_tree_holds_live_leaves.
Print Assumptions C07_calls_return.
Print Assumptions C08_boxes_enclose.
Print Assumptions C08_query_exact.
Print Assumptions C08_query_misses_nothing.
Print Assumptions C08_raycast_exact.
Print Assumptions C08_raycast_misses_nothing.
Print Assumptions C09_move.
Print Assumptions C09_stored_contains_given.

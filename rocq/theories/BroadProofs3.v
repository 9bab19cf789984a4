(** Proofs about the broadphase: updates, the other calls, and histories. *)
From Verif Require Import Outcome TreeModel TreeSpec TreeProofs TreeHist TreeProps BoxModel BoxProofs
  MapModel MapSpec MapProofs BroadModel BroadSpec BroadProofs BroadProofs2.

Section proofs.
Context (G : geom) (ord : gset nat → list nat) (Hord : ∀ s, ord s ≡ₚ elements s).
Notation box := (aabb (g_T G)).
Notation bw := (bw G).
Implicit Types w : bw.

Lemma not_stale (st : gset nat) x e : x ≠ e → x ∉ st ∖ {[e]} → x ∉ st.
Proof. set_solver. Qed.

Lemma in_diff (s : gset nat) x e : x ∈ s → x ≠ e → x ∈ s ∖ {[e]}.
Proof. set_solver. Qed.
Lemma out_diff (s : gset nat) x e : x ∈ s ∖ {[e]} → x ∈ s.
Proof. set_solver. Qed.
Lemma in_add (s : gset nat) x e : x ∈ s → x ∈ {[e]} ∪ s.
Proof. set_solver. Qed.
Lemma in_new (s : gset nat) e : e ∈ {[e]} ∪ s.
Proof. set_solver. Qed.
Lemma iff_diff (s : gset nat) x e : x ≠ e → x ∈ s ↔ x ∈ s ∖ {[e]}.
Proof. set_solver. Qed.
Lemma disj_diff (s t : gset nat) e : s ## t → s ∖ {[e]} ## t ∖ {[e]}.
Proof. set_solver. Qed.
Lemma sub_diff (s t : gset nat) e : s ⊆ t → s ∖ {[e]} ⊆ t ∖ {[e]}.
Proof. set_solver. Qed.

(** ** update *)
Lemma update_inv mt sc w M st :
  binv G w M st →
  ∃ w' M', update G ord mt sc w = Ok w' ∧ update G ord (negb mt) sc w = Ok w' ∧ binv G w' M' (st ∖ movers G w) ∧
    b_new G w' = [] ∧ b_aabb G w' = b_aabb G w ∧ b_proc G w' = b_proc G w ∧ b_kin G w' = b_kin G w ∧
    b_off G w' = b_off G w ∧ b_dis G w' = b_dis G w ∧
    (∀ m a b, mm_body (b_man G w) !! m = Some (a, b) →
      (m ∈ b_off G w ∨ near G (g_sep G) w a b → mm_body (b_man G w') !! m = Some (a, b)) ∧
      (m ∉ b_off G w → ¬ near G (g_sep G) w a b → mm_body (b_man G w') !! m = None)) ∧
    (∀ m a b, mm_body (b_man G w') !! m = Some (a, b) → mm_body (b_man G w) !! m = None →
      active G w a ∧ b ∉ b_dis G w ∧ sc a b = true ∧ near G (g_off G) w a b) ∧
    (total_order (g_leb G) (g_ltb G) → grows G (g_fat G) →
     ∀ a b, active G w a → b ∉ b_dis G w → b ∉ st ∖ movers G w → sc a b = true → near G (g_off G) w a b →
       joined G w' a b).
Proof.
  intros I. destruct (init_new_inv G w M st I) as (w1 & M1 & E1 & I1 & S1 & N1).
  destruct (sep_inv G ord Hord w1 M1 st I1) as (w2 & E2 & I2 & R2).
  pose proof R2 as (D1 & D2 & D3 & D4 & D5 & D6 & D7 & D8 & D9 & D10 & Hno & Hnone & Hin).
  destruct (move_inv G ord Hord w2 M1 st I2) as (w3 & M3 & E3 & I3 & S3 & N3 & R3); [congruence|].
  destruct S1 as (V1 & A1 & P1 & K1 & O1 & Di1 & Ma1 & Ne1). destruct S3 as (V3 & A3 & P3 & K3 & O3 & Di3 & Ma3 & Ne3).
  assert (A : b_aabb G w3 = b_aabb G w) by congruence.
  assert (P : b_proc G w3 = b_proc G w) by congruence.
  assert (Of : b_off G w3 = b_off G w) by congruence.
  assert (Ds : b_dis G w3 = b_dis G w) by congruence.
  assert (Mv : movers G w2 = movers G w) by (unfold movers; congruence).
  rewrite Mv in I3.
  assert (Hview : ∀ e, e ∈ proc_view G ord w3 ↔ active G w e).
  { intros e. unfold proc_view, active. rewrite (ord_elem ord Hord), elem_of_difference, elem_of_intersection, elem_of_dom, A, P, Of. tauto. }
  destruct (concat_res_ok (pairs_of G sc w3) (proc_view G ord w3)) as (ps & Eps & Hps).
  { intros e He. apply Hview in He as (_ & _ & He). destruct (pairs_of_ok G sc w3 M3 _ e I3) as (k & Ek & _); [by rewrite A|]. eauto. }
  assert (Hsound : ∀ a b, (a, b) ∈ ps → active G w a ∧ b ∉ b_dis G w ∧ sc a b = true ∧ near G (g_off G) w a b).
  { intros a b Hab. apply Hps in Hab as (e & k & He & Ek & Hk). apply Hview in He.
    destruct (pairs_of_ok G sc w3 M3 _ e I3) as (k' & Ek' & Hk'); [rewrite A; apply He|].
    rewrite Ek in Ek'. injection Ek' as <-. destruct (Hk' a b Hk) as (-> & ? & ? & Hn). rewrite (near_eq _ _ w w3) in Hn by done.
    split_and!; try done. congruence. }
  destruct (finish_fold_inv G ps w3 M3 _ I3) as (w' & E' & I' & Keep & New & J).
  { intros a b Hab. destruct (Hsound a b Hab) as ((? & _ & ?) & _ & _ & (? & bb & _ & Hb & _)). rewrite P, A.
    split_and!; try done. }
  pose proof (finish_fold_mans G ps w3 w' E') as Hm.
  assert (Hupd : ∀ mt, update G ord mt sc w = Ok w').
  { intros mt'. unfold update. rewrite E1. cbn [mbind res_bind]. rewrite E2. cbn [mbind res_bind]. rewrite E3. cbn [mbind res_bind].
    destruct (_ && _); [rewrite Eps; cbn [mbind res_bind]; exact E'|].
    rewrite (collide_all_eq G sc w3 _ w3 ps (mans_refl G w3) Eps). exact E'. }
  exists w', M3. split; [apply Hupd|]. split; [apply Hupd|]. split; [done|].
  assert (Hn : ∀ v a b, near G v w1 a b ↔ near G v w a b) by (intros; by apply near_eq).
  split_and!.
  - rewrite Hm. cbn. done.
  - rewrite Hm. cbn. done.
  - rewrite Hm. cbn. done.
  - rewrite Hm. cbn. congruence.
  - rewrite Hm. cbn. done.
  - rewrite Hm. cbn. done.
  - intros m a b Hab. assert (Hab1 : mm_body (b_man G w1) !! m = Some (a, b)) by congruence. split.
    + intros Hor. apply Keep. rewrite Ma3. destruct (decide (m ∈ b_off G w1)) as [Ho|Ho].
      * rewrite Hno; [done|]. intros ?. done.
      * apply (Hin m a b Ho Hab1). destruct Hor as [?|?]; [congruence|]. by apply Hn.
    + intros Ho Hfar. destruct (mm_body (b_man G w') !! m) as [[x y]|] eqn:E; [|done].
      rewrite <- O1 in Ho. destruct (Hin m a b Ho Hab1) as [_ Hgone]. rewrite Hn in Hgone.
      destruct (New m x y E) as [H3|(Hle & _)]; [rewrite Ma3, Hgone in H3; done|].
      destruct (bi_body _ _ _ _ I _ _ _ Hab) as (_ & _ & Hv & _). apply (bi_lt _ _ _ _ I) in Hv. lia.
  - intros m a b Hab Hn0. destruct (New m a b Hab) as [H3|(_ & Hin' & _)]; [|by apply Hsound].
    rewrite Ma3, Hnone in H3; [done|congruence].
  - intros O Fat a b Ha Hd Hst Hsc Hnear. apply J. apply Hps.
    destruct (pairs_of_ok G sc w3 M3 _ a I3) as (k & Ek & _); [rewrite A; apply Ha|].
    exists a, k. split; [by apply Hview|]. split; [done|].
    eapply (pairs_of_complete G sc w3 M3 _ a b k O Fat I3 N3 Ek Hsc); [congruence|done|]. by apply (near_eq _ _ w w3).
Qed.

(** ** The other calls *)
Ltac flds := cbn [b_tree b_np b_new b_valid b_aabb b_res b_proc b_kin b_off b_dis b_man b_next
  set_tree set_new set_aabb set_res set_ents set_tags set_man set_next set_kind].

Lemma drop_aabb_inv w M st e :
  binv G w M st → no_manifold G w e →
  ∃ w' M', drop_aabb G w e = Ok w' ∧ binv G w' M' (st ∖ {[e]}) ∧ b_res G w' !! e = None ∧ b_aabb G w' !! e = None ∧
    b_man G w' = b_man G w ∧ b_valid G w' = b_valid G w ∧ b_proc G w' = b_proc G w ∧ b_kin G w' = b_kin G w ∧
    b_off G w' = b_off G w ∧ b_dis G w' = b_dis G w.
Proof.
  intros I Hnm. pose proof I as [It Il Ir Ia Ind In Ilt Im Ib Ik Id]. unfold drop_aabb.
  assert (Hb : ∀ m a b, mm_body (b_man G w) !! m = Some (a, b) →
    is_Some (delete e (b_aabb G w) !! a) ∧ is_Some (delete e (b_aabb G w) !! b) ∧ m ∈ b_valid G w ∧
    delete e (b_aabb G w) !! m = None).
  { intros m a b Hm. destruct (Ib _ _ _ Hm) as (?&?&?&Hmn). destruct (Hnm _ _ _ Hm).
    rewrite !lookup_delete_ne by done. split_and!; try done. apply lookup_delete_None. by right. }
  destruct (b_res G w !! e) as [[id p]|] eqn:Er.
  - rewrite decide_True by (by eexists). unfold drop_resident. rewrite Er. cbn [opt_res mbind res_bind].
    destruct (Ir _ _ _ Er) as (Hp & lf & b & Hlf & Hent & Hba & _).
    destruct (destroy_ok G (tree_of G w p) (M p) id lf (It p) Hlf) as (t & -> & Ht). cbn [mbind res_bind].
    eexists _, (upd G M p (delete id (M p))). split; [done|].
    split; [|flds; rewrite !lookup_delete; done]. split; flds; try done.
    + intros q. change (tree_of G _ q) with (tree_of G (set_tree G w p t) q). rewrite tree_set.
      destruct (decide (q = p)) as [->|?]; [by rewrite upd_same|rewrite upd_other by done; apply It].
    + intros q i l Hl. destruct (decide (q = p)) as [->|Hne].
      * rewrite upd_same in Hl. apply lookup_delete_Some in Hl as [Hi Hl]. destruct (Il _ _ _ Hl) as (x & Hx & Hrx).
        exists x. split; [done|]. rewrite lookup_delete_ne; [done|]. intros <-. congruence.
      * rewrite upd_other in Hl by done. destruct (Il _ _ _ Hl) as (x & Hx & Hrx).
        exists x. split; [done|]. rewrite lookup_delete_ne; [done|]. intros <-. congruence.
    + intros x i q [Hne Hx]%lookup_delete_Some. destruct (Ir _ _ _ Hx) as (? & l & bx & Hl & Hent' & Hbx & Hst).
      split; [done|]. exists l, bx. rewrite lookup_delete_ne by done. split_and!; try done;
        [|intros Hn; apply Hst; eapply not_stale; [|exact Hn]; congruence].
      destruct (decide (q = p)) as [->|?]; [|by rewrite upd_other]. rewrite upd_same, lookup_delete_ne; [done|].
      intros <-. congruence.
    + intros x [bx [Hne Hx]%lookup_delete_Some]. destruct (Ia x) as [? ?]; [by eexists|]. split; [done|].
      by rewrite lookup_delete_ne.
    + intros x Hx. destruct (In x Hx). split; [done|]. apply lookup_delete_None. by right.
  - rewrite decide_False by (by intros [? ?]). cbn [mbind res_bind]. exists (set_aabb G w (delete e (b_aabb G w))), M.
    split; [done|]. split; [|flds; rewrite lookup_delete; done]. split; flds; try done.
    + intros x i q Hx. destruct (Ir _ _ _ Hx) as (? & l & bx & Hl & Hent' & Hbx & Hst). split; [done|].
      exists l, bx. rewrite lookup_delete_ne by (intros <-; congruence). split_and!; try done.
      intros Hn. apply Hst. intros Hx'. apply Hn. apply elem_of_difference. split; [done|]. intros ->%elem_of_singleton. congruence.
    + intros x [bx [Hne Hx]%lookup_delete_Some]. apply Ia. by eexists.
Qed.

Lemma kill_fold l : ∀ w M st,
  binv G w M st → NoDup l → (∀ m, m ∈ l → is_Some (mm_body (b_man G w) !! m)) →
  ∃ w', fold_w G (kill_manifold G) w l = Ok w' ∧ binv G w' M st ∧
    (∀ m, m ∈ l → mm_body (b_man G w') !! m = None) ∧
    (∀ m, m ∉ l → mm_body (b_man G w') !! m = mm_body (b_man G w) !! m) ∧
    b_res G w' = b_res G w ∧ b_aabb G w' = b_aabb G w ∧ b_proc G w' = b_proc G w ∧ b_kin G w' = b_kin G w.
Proof.
  induction l as [|m l IH]; intros w M st I Hnd Hl.
  { exists w. split_and!; try done. intros m Hm. by apply elem_of_nil in Hm. }
  apply NoDup_cons in Hnd as [Hni Hnd]. rewrite fold_w_cons.
  destruct (kill_inv G w M st m I) as (w1 & -> & I1 & E1 & B1); [apply Hl; left|]. cbn [mbind res_bind].
  destruct (IH w1 M st I1 Hnd) as (w2 & -> & I2 & G2 & K2 & F1 & F2 & F3 & F4).
  { intros x Hx. rewrite B1, lookup_delete_ne by (by intros ->). apply Hl. by right. }
  exists w2. split; [done|]. split; [done|]. rewrite F1, F2, F3, F4, E1. cbn. split_and!; try done.
  - intros x [->|Hx]%elem_of_cons; [|by apply G2]. rewrite K2, B1, lookup_delete by done. done.
  - intros x [Hx1 Hx2]%not_elem_of_cons. by rewrite K2, B1, lookup_delete_ne by done.
Qed.

Lemma kind_proc_self w e k : bool_decide (e ∈ b_proc G (set_kind G w e k)) = kind_proc k.
Proof. destruct k; cbn; [apply bool_decide_eq_true_2|apply bool_decide_eq_false_2..]; set_solver. Qed.
Lemma kind_proc_other w e k x : x ≠ e → x ∈ b_proc G (set_kind G w e k) ↔ x ∈ b_proc G w.
Proof. destruct k; cbn; set_solver. Qed.
Lemma kind_disj w e k : b_kin G w ## b_proc G w → b_kin G (set_kind G w e k) ## b_proc G (set_kind G w e k).
Proof. destruct k; cbn; set_solver. Qed.

(** Changing the tags of a body that is in no tree *)
Lemma set_kind_inv w M st e k :
  binv G w M st → (∀ id p, b_res G w !! e = Some (id, p) → p = kind_proc k) → binv G (set_kind G w e k) M st.
Proof.
  intros [It Il Ir Ia Ind In Ilt Im Ib Ik Id] He. split; try done.
  - intros x id p Hx. cbn [b_res set_kind set_ents] in Hx. destruct (Ir _ _ _ Hx) as (Hp & Hr). split; [|exact Hr].
    destruct (decide (x = e)) as [->|Hne]; [rewrite kind_proc_self; by eapply He|].
    rewrite Hp. apply bool_decide_ext. by rewrite kind_proc_other.
  - by apply kind_disj.
Qed.

Lemma set_procedural_inv w M st e k :
  binv G w M st →
  ∃ w' M', set_procedural G (set_kind G w e k) e (kind_proc k) = Ok w' ∧
    binv G w' M' (stale_step G w st (SetKind G e k)).
Proof.
  intros I. pose proof I as [It Il Ir Ia Ind In Ilt Im Ib Ik Id]. unfold set_procedural, stale_step.
  cbn [b_aabb b_res set_kind set_ents].
  destruct (b_res G w !! e) as [[id q]|] eqn:Er.
  - destruct (Ir _ _ _ Er) as (Hq & lf & b & Hlf & Hent & Hb & Hst). rewrite Hb.
    destruct (decide (q = kind_proc k)) as [Hk|Hk].
    + eexists _, M. split; [done|]. apply set_kind_inv; [done|]. intros id' p' E. congruence.
    + change (tree_of G (set_kind G w e k) q) with (tree_of G w q).
      destruct (destroy_ok G (tree_of G w q) (M q) id lf (It q) Hlf) as (t & -> & Ht). cbn [mbind res_bind].
      rewrite tree_set, decide_False by congruence. change (tree_of G (set_kind G w e k) (kind_proc k)) with (tree_of G w (kind_proc k)).
      destruct (create_ok G (tree_of G w (kind_proc k)) (M (kind_proc k)) b (Some e) (It _)) as (t' & id' & -> & Hid' & Ht').
      cbn [mbind res_bind]. set (r := kind_proc k) in *.
      eexists _, (upd G (upd G M q (delete id (M q))) r (<[id' := Leaf (Some e) b (t_inset G b)]> (M r))).
      split; [done|]. split; flds; try done.
      * intros x. change (tree_of G _ x) with (tree_of G (set_tree G (set_tree G w q t) r t') x). rewrite !tree_set.
        destruct (decide (x = r)) as [->|?]; [by rewrite upd_same|]. rewrite upd_other by done.
        destruct (decide (x = q)) as [->|?]; [by rewrite upd_same|]. rewrite upd_other by done. apply It.
      * intros x i l Hl. destruct (decide (x = r)) as [->|Hxr].
        -- rewrite upd_same in Hl. destruct (decide (id' = i)) as [<-|Hi].
           ++ rewrite lookup_insert in Hl. injection Hl as <-. exists e. by rewrite lookup_insert.
           ++ rewrite lookup_insert_ne in Hl by done. destruct (Il _ _ _ Hl) as (y & ? & Hy). exists y. split; [done|].
              rewrite lookup_insert_ne; [done|]. intros <-. congruence.
        -- rewrite upd_other in Hl by done. destruct (decide (x = q)) as [->|Hxq].
           ++ rewrite upd_same in Hl. apply lookup_delete_Some in Hl as [Hi Hl]. destruct (Il _ _ _ Hl) as (y & ? & Hy).
              exists y. split; [done|]. rewrite lookup_insert_ne; [done|]. intros <-. congruence.
           ++ rewrite upd_other in Hl by done. destruct (Il _ _ _ Hl) as (y & ? & Hy).
              exists y. split; [done|]. rewrite lookup_insert_ne; [done|]. intros <-. congruence.
      * intros x i y Hx. destruct (decide (e = x)) as [<-|Hne].
        -- rewrite lookup_insert in Hx. injection Hx as <- <-. split; [symmetry; apply kind_proc_self|].
           eexists _, b. rewrite upd_same, lookup_insert. split_and!; done.
        -- rewrite lookup_insert_ne in Hx by done. destruct (Ir _ _ _ Hx) as (Hy & l & bx & Hl & He' & Hbx & Hst').
           split; [rewrite Hy; apply bool_decide_ext; by rewrite <- (kind_proc_other w e k)|].
           exists l, bx. split_and!; try done; [|intros Hn; apply Hst'; by eapply not_stale].
           destruct (decide (y = r)) as [->|Hyr].
           ++ rewrite upd_same, lookup_insert_ne; [done|]. intros <-. congruence.
           ++ rewrite upd_other by done. destruct (decide (y = q)) as [->|?]; [|by rewrite upd_other].
              rewrite upd_same, lookup_delete_ne; [done|]. intros <-. congruence.
      * intros x Hx. destruct (Ia x Hx) as (? & Hc). split; [done|]. destruct (decide (e = x)) as [<-|?].
        -- left. rewrite lookup_insert. by eexists.
        -- by rewrite lookup_insert_ne.
      * intros x Hx. destruct (In x Hx). split; [done|]. rewrite lookup_insert_ne; [done|]. intros <-. congruence.
      * by apply (kind_disj w e k).
  - exists (set_kind G w e k), M. split; [by destruct (b_aabb G w !! e)|]. apply set_kind_inv; [done|]. intros id p E. congruence.
Qed.

Lemma add_aabb_inv w M st e b :
  binv G w M st → e ∈ b_valid G w → b_aabb G w !! e = None → e ∉ b_new G w → ¬ is_manifold G w e →
  ∃ w', add_aabb G w e b = Ok w' ∧ binv G w' M st.
Proof.
  intros [It Il Ir Ia Ind In Ilt Im Ib Ik Id] Hv Ha Hn Hm. unfold add_aabb.
  rewrite bool_decide_eq_true_2 by done. cbn [require_ mbind res_bind]. eexists. split; [done|].
  assert (Hr : b_res G w !! e = None).
  { destruct (b_res G w !! e) as [[id p]|] eqn:E; [|done]. destruct (Ir _ _ _ E) as (_ & ? & ? & _ & _ & ? & _). congruence. }
  split; flds; try done.
  - intros x id p Hx. destruct (Ir _ _ _ Hx) as (? & l & bx & ? & ? & ? & ?). split; [done|]. exists l, bx.
    rewrite lookup_insert_ne by (intros <-; congruence). done.
  - intros x Hx. destruct (decide (e = x)) as [<-|Hne].
    + split; [done|]. right. apply elem_of_app. right. by apply elem_of_list_singleton.
    + rewrite lookup_insert_ne in Hx by done. destruct (Ia x Hx) as (? & [?|?]); split; auto. right. apply elem_of_app. by left.
  - apply NoDup_app. split; [done|]. split; [|apply NoDup_singleton]. intros x Hx ->%elem_of_list_singleton. done.
  - intros x [Hx| ->%elem_of_list_singleton]%elem_of_app; [by apply In|]. split; [by apply Ilt|done].
  - intros m a c Hmm. destruct (Ib _ _ _ Hmm) as (?&?&?&?). split_and!; try done.
    + destruct (decide (e = a)) as [<-|?]; [rewrite lookup_insert; by eexists|by rewrite lookup_insert_ne].
    + destruct (decide (e = c)) as [<-|?]; [rewrite lookup_insert; by eexists|by rewrite lookup_insert_ne].
    + rewrite lookup_insert_ne; [done|]. intros <-. apply Hm. unfold is_manifold. rewrite Hmm. by eexists.
Qed.

Lemma new_ent_inv w M st : binv G w M st →
  let w' := (new_ent G w).1 in binv G w' M st ∧ b_next G w ∈ b_valid G w' ∧ b_aabb G w' !! b_next G w = None ∧
    b_res G w' !! b_next G w = None ∧ b_next G w ∉ b_new G w' ∧ ¬ is_manifold G w' (b_next G w).
Proof.
  intros [It Il Ir Ia Ind In Ilt Im Ib Ik Id]. unfold new_ent. cbn [fst].
  assert (Ha : b_aabb G w !! b_next G w = None).
  { destruct (b_aabb G w !! b_next G w) eqn:E; [|done]. destruct (Ia (b_next G w)) as [Hv _]; [by eexists|]. apply Ilt in Hv. lia. }
  assert (Hr : b_res G w !! b_next G w = None).
  { destruct (b_res G w !! b_next G w) as [[id p]|] eqn:E; [|done]. destruct (Ir _ _ _ E) as (_ & ? & ? & _ & _ & ? & _). congruence. }
  flds. split; [|split_and!; try done; [apply in_new| |]].
  - split; flds; try done.
    + intros x Hx. destruct (Ia x Hx). split; [by apply in_add|done].
    + intros x Hx. destruct (In x Hx). split; [lia|done].
    + intros x [->%elem_of_singleton|Hx]%elem_of_union; [lia|]. apply Ilt in Hx. lia.
    + intros m a b Hm. destruct (Ib _ _ _ Hm) as (?&?&?&?). split_and!; try done. by apply in_add.
  - intros Hx. apply In in Hx as [? _]. lia.
  - intros [[a b] Hm]. destruct (Ib _ _ _ Hm) as (_ & _ & Hv & _). apply Ilt in Hv. lia.
Qed.

Lemma step_inv w M st o :
  binv G w M st → legal G w o →
  ∃ w' M', bstep G ord w o = Ok w' ∧ binv G w' M' (stale_step G w st o).
Proof.
  intros I L. destruct o as [k b|e b|e|e|e k|e b|o d|m|m| |mt sc]; cbn [bstep].
  - destruct (new_ent_inv w M st I) as (I1 & Hv & Ha & Hr & Hn & Hm). unfold new_ent in *. cbn [fst] in *.
    set (w1 := set_next G _ _) in *. assert (I2 : binv G (set_kind G w1 (b_next G w) k) M st).
    { apply set_kind_inv; [done|]. intros id p E. congruence. }
    destruct b as [b|]; cbn [stale_step]; [|exists (set_kind G w1 (b_next G w) k), M; done].
    destruct (add_aabb_inv (set_kind G w1 (b_next G w) k) M st (b_next G w) b I2) as (w' & E & I'); try done. eauto.
  - destruct L as (Hv & Ha & Hn & Hm). rewrite bool_decide_eq_true_2 by done. cbn [require_ mbind res_bind].
    destruct (add_aabb_inv w M st e b I) as (w' & E & I'); try done. eauto.
  - destruct L as (Ha & Hnm). rewrite bool_decide_eq_true_2 by done. cbn [require_ mbind res_bind].
    destruct (drop_aabb_inv w M st e I Hnm) as (w' & M' & E & I' & _). eauto.
  - destruct L as (Hv & Hm). rewrite bool_decide_eq_true_2 by done. cbn [require_ mbind res_bind].
    destruct (kill_fold (manifolds_of G ord w e) w M st I) as (w1 & -> & I1 & G1 & K1 & _).
    { apply (ord_nodup ord Hord). }
    { intros m Hm'. apply (ord_elem ord Hord), elem_of_dom in Hm' as [p Hp].
      apply map_filter_lookup_Some in Hp as [Hp _]. by eexists. }
    cbn [mbind res_bind].
    assert (Hnm : no_manifold G w1 e).
    { intros m a b Hab. destruct (decide (m ∈ manifolds_of G ord w e)) as [Hin|Hin].
      - rewrite G1 in Hab; done.
      - rewrite K1 in Hab by done. destruct (decide (a = e ∨ b = e)) as [Hor|Hor]; [|naive_solver].
        destruct Hin. apply (ord_elem ord Hord), elem_of_dom. exists (a, b). by apply map_filter_lookup_Some. }
    assert (Hm1 : ¬ is_manifold G w1 e).
    { intros [p Hp]. apply Hm. destruct (decide (e ∈ manifolds_of G ord w e)) as [Hin|Hin]; [rewrite G1 in Hp; done|].
      exists p. by rewrite <- K1. }
    destruct (drop_aabb_inv w1 M st e I1 Hnm) as (w2 & M2 & -> & I2 & Hr2 & Ha2 & Hman & Hval & _).
    cbn [mbind res_bind]. eexists _, M2. split; [done|]. cbn [stale_step].
    destruct I2 as [It Il Ir Ia Ind In Ilt Im Ib Ik Id]. split; flds; try done.
    + intros x id p Hx. destruct (Ir _ _ _ Hx) as (Hp & Hr). split; [|exact Hr]. rewrite Hp. apply bool_decide_ext.
      apply iff_diff. intros ->; congruence.
    + intros x Hx. destruct (Ia x Hx). split; [|done]. apply in_diff; [done|]. intros ->; rewrite Ha2 in Hx; by destruct Hx.
    + intros x Hx. apply Ilt. by eapply out_diff.
    + intros m a b Hab. destruct (Ib _ _ _ Hab) as (?&?&?&?). split_and!; try done.
      apply in_diff; [done|]. intros ->. apply Hm1. rewrite Hman in Hab. by eexists.
    + by apply disj_diff.
    + by apply sub_diff.
  - destruct L as (Hv & Hm). rewrite bool_decide_eq_true_2 by done. cbn [require_ mbind res_bind].
    apply (set_procedural_inv w M st e k I).
  - rewrite bool_decide_eq_true_2 by done. cbn [require_ mbind res_bind]. eexists _, M. split; [done|].
    destruct L as [b0 Hb0]. destruct I as [It Il Ir Ia Ind In Ilt Im Ib Ik Id]. cbn [stale_step]. split; flds; try done.
    + intros x id p Hx. destruct (Ir _ _ _ Hx) as (? & l & bx & ? & ? & Hbx & Hst). split; [done|].
      destruct (decide (e = x)) as [<-|Hne].
      * exists l, b. rewrite lookup_insert, decide_True by (rewrite Hx; by eexists). split_and!; try done. intros Hn. destruct Hn. apply in_new.
      * exists l, bx. rewrite lookup_insert_ne by done. split_and!; try done. intros Hn. apply Hst. intros Hx'. apply Hn.
        case_decide; [by apply in_add|done].
    + intros x Hx. apply Ia. destruct (decide (e = x)) as [<-|Hne]; [by eexists|]. by rewrite lookup_insert_ne in Hx.
    + intros m a c Hmm. destruct (Ib _ _ _ Hmm) as (?&?&?&?). split_and!; try done.
      * destruct (decide (e = a)) as [<-|?]; [rewrite lookup_insert; by eexists|by rewrite lookup_insert_ne].
      * destruct (decide (e = c)) as [<-|?]; [rewrite lookup_insert; by eexists|by rewrite lookup_insert_ne].
      * rewrite lookup_insert_ne; [done|]. intros <-. congruence.
  - eexists _, M. split; [done|]. destruct I as [It Il Ir Ia Ind In Ilt Im Ib Ik Id]. split; flds; try done. apply union_subseteq_r.
  - destruct (kill_inv G w M st m I L) as (w' & E & I' & _). eauto.
  - destruct L as [[a b] Hab]. pose proof I as [It Il Ir Ia Ind In Ilt Im Ib Ik Id].
    destruct (mstep_sim _ _ (MSwap m) (<[m := (b, a)]> (mm_body (b_man G w))) Im) as (c & Hc & Hrel).
    { simpl. by rewrite Hab. }
    cbn [mstep] in Hc. rewrite Hc. cbn [mbind res_bind]. eexists _, M. split; [done|].
    assert (Hbody : mm_body c = <[m := (b, a)]> (mm_body (b_man G w))) by apply (mr_body _ _ Hrel).
    split; flds; try done.
    + by rewrite Hbody.
    + rewrite Hbody. intros m' x y Hm'. destruct (decide (m = m')) as [<-|Hne].
      * rewrite lookup_insert in Hm'. injection Hm' as <- <-. destruct (Ib _ _ _ Hab) as (?&?&?&?). done.
      * rewrite lookup_insert_ne in Hm' by done. by apply (Ib m').
  - destruct (init_new_inv G w M st I) as (w' & M' & E & I' & _). eauto.
  - destruct (update_inv mt sc w M st I) as (w' & M' & E & _ & I' & _). eauto.
Qed.

Lemma binv_empty : binv G (b_empty G) (λ _, ∅) ∅.
Proof.
  split; cbn; try done.
  - intros []; apply tr_empty.
  - intros e [x Hx]. done.
  - constructor.
  - intros e He. by apply elem_of_nil in He.
  - split; cbn; try done. intros a b m. rewrite !lookup_empty. naive_solver.
Qed.
Lemma breach_inv w st : breach G ord w st → ∃ M, binv G w M st.
Proof.
  induction 1 as [|w st o w' Hr [M I] L E]; [eexists; apply binv_empty|].
  destruct (step_inv w M st o I L) as (w2 & M2 & E2 & I2). rewrite E in E2. injection E2 as <-. eauto.
Qed.

(** ** Queries *)
Lemma query_inv w M st p q :
  total_order (g_leb G) (g_ltb G) → grows G (g_fat G) → binv G w M st →
  ∃ l, query G w p q = Ok l ∧ NoDup l ∧
    (∀ e, e ∈ l → is_Some (b_aabb G w !! e) ∧ (e ∈ b_proc G w ↔ p = true)) ∧
    (∀ e b, b_aabb G w !! e = Some b → e ∉ b_new G w → e ∉ st → (e ∈ b_proc G w ↔ p = true) →
       touch G b q = true → e ∈ l).
Proof.
  intros O Fat I. destruct (C07_calls_return _ _ _ _ _ _ _ _ _ _ _ _ (bi_tree _ _ _ _ I p)) as (_ & _ & _ & Ht).
  destruct (Ht (λ b, touch G b q)) as (l & El & Hnd & Hl). unfold query. rewrite El. cbn [mbind res_bind].
  assert (K : ∃ es, foldr (λ id acc, e ← leaf_entity G (tree_of G w p) id; r ← acc; Ok (e :: r)) (Ok []) l = Ok es ∧
    Forall2 (λ id e, b_res G w !! e = Some (id, p)) l es).
  { clear Hnd El. induction l as [|i l IH]; [exists []; by split|].
    destruct IH as (es & E & F); [intros; apply Hl; by right|]. destruct (Hl i) as [lf Hlf]; [left|].
    destruct (bi_leaf _ _ _ _ I p i lf Hlf) as (o & Ho & Hr). destruct (get_leaf G _ _ i lf (bi_tree _ _ _ _ I p) Hlf) as (n & Hn & Hc).
    assert (Hle : leaf_entity G (tree_of G w p) i = Ok o).
    { unfold leaf_entity. rewrite Hn. cbn [mbind res_bind]. by rewrite Hc, Ho. }
    exists (o :: es). cbn [foldr]. rewrite Hle, E. cbn [mbind res_bind]. split; [done|]. by constructor. }
  destruct K as (es & -> & F). exists es. split_and!.
  - done.
  - clear -F Hnd. induction F as [|i e l es Hr F IH]; [constructor|]. apply NoDup_cons in Hnd as [Hni Hnd].
    constructor; [|by apply IH]. intros He. apply elem_of_list_lookup in He as [j He].
    destruct (Forall2_lookup_r _ _ _ _ _ F He) as (i' & Hi' & Hr'). simpl in Hr'. rewrite Hr in Hr'. injection Hr' as <-.
    apply Hni. by eapply elem_of_list_lookup_2.
  - intros e He. apply elem_of_list_lookup in He as [j He]. destruct (Forall2_lookup_r _ _ _ _ _ F He) as (i & Hi & Hr).
    destruct (bi_res _ _ _ _ I _ _ _ Hr) as (-> & lf & b & _ & _ & Hb & _). rewrite Hb. split; [by eexists|].
    by rewrite bool_decide_eq_true.
  - intros e b Hb Hn Hst Hp Htq. destruct (bi_aabb _ _ _ _ I e) as (_ & [[[id p'] Hr]|?]); [by eexists| |done].
    destruct (bi_res _ _ _ _ I _ _ _ Hr) as (Hp' & lf & b' & Hlf & _ & Hb' & Hg). specialize (Hg Hst).
    rewrite Hb in Hb'. injection Hb' as <-.
    assert (p' = p) as ->.
    { rewrite Hp'. destruct p; [apply bool_decide_eq_true_2; tauto|]. apply bool_decide_eq_false_2. intuition done. }
    assert (Hi : id ∈ l).
    { eapply (C08_query_misses_nothing (g_leb G) (g_ltb G) (g_add G) (g_sub G) (g_mul G) (g_two G)
        (g_fat G) (g_box0 G) O Fat _ _ q l id lf (bi_tree _ _ _ _ I p) El Hlf). rewrite Hg. exact Htq. }
    apply elem_of_list_lookup in Hi as [j Hj]. destruct (Forall2_lookup_l _ _ _ _ _ F Hj) as (e' & He' & Hr').
    simpl in Hr'. destruct (bi_res _ _ _ _ I _ _ _ Hr') as (_ & lf' & ? & Hlf' & Hent' & _).
    destruct (bi_res _ _ _ _ I _ _ _ Hr) as (_ & lf2 & ? & Hlf2 & Hent2 & _). assert (e' = e) as -> by congruence.
    by eapply elem_of_list_lookup_2.
Qed.
End proofs.

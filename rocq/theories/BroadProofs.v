(** Proofs about the broadphase: the invariant of histories. *)
From Verif Require Import Outcome TreeModel TreeSpec TreeProofs TreeHist TreeProps BoxModel BoxProofs
  MapModel MapSpec MapProofs BroadModel BroadSpec.

Section proofs.
Context (G : geom).
Notation box := (aabb (g_T G)).
Notation treach := (treach (bx_enclose (g_ltb G)) (t_inset G) (bx_contains (g_leb G))
  (bx_area (g_add G) (g_sub G) (g_mul G) (g_two G)) (g_add G) (g_sub G) (g_mul G) (g_two G) (g_ltb G) (g_box0 G)).
Notation bw := (bw G).
Implicit Types w : bw.

Definition upd (M : bool → gmap nat (leaf box)) (p : bool) (m : gmap nat (leaf box)) : bool → gmap nat (leaf box) :=
  λ q, if decide (q = p) then m else M q.
Lemma upd_same M p m : upd M p m p = m.
Proof. unfold upd. by rewrite decide_True. Qed.
Lemma upd_other M p q m : q ≠ p → upd M p m q = M q.
Proof. intros. unfold upd. by rewrite decide_False. Qed.
Lemma tree_set w p t q : tree_of G (set_tree G w p t) q = if decide (q = p) then t else tree_of G w q.
Proof. by destruct p, q. Qed.
Lemma tree_res w m q : tree_of G (set_res G w m) q = tree_of G w q.
Proof. done. Qed.

Record binv (w : bw) (M : bool → gmap nat (leaf box)) (st : gset nat) : Prop := BInv {
  bi_tree : ∀ p, treach (tree_of G w p) (M p);
  bi_leaf : ∀ p id lf, M p !! id = Some lf → ∃ e, lf_ent lf = Some e ∧ b_res G w !! e = Some (id, p);
  bi_res : ∀ e id p, b_res G w !! e = Some (id, p) → p = bool_decide (e ∈ b_proc G w) ∧
    ∃ lf b, M p !! id = Some lf ∧ lf_ent lf = Some e ∧ b_aabb G w !! e = Some b ∧ (e ∉ st → lf_given lf = b);
  bi_aabb : ∀ e, is_Some (b_aabb G w !! e) → e ∈ b_valid G w ∧ (is_Some (b_res G w !! e) ∨ e ∈ b_new G w);
  bi_nodup : NoDup (b_new G w);
  bi_new : ∀ e, e ∈ b_new G w → e < b_next G w ∧ b_res G w !! e = None;
  bi_lt : ∀ e, e ∈ b_valid G w → e < b_next G w;
  bi_man : mrel (mm_body (b_man G w)) (b_man G w);
  bi_body : ∀ m a b, mm_body (b_man G w) !! m = Some (a, b) →
    is_Some (b_aabb G w !! a) ∧ is_Some (b_aabb G w !! b) ∧ m ∈ b_valid G w ∧ b_aabb G w !! m = None;
  bi_kin : b_kin G w ## b_proc G w;
  bi_dis : b_dis G w ⊆ b_off G w }.

Lemma fold_w_app {A} (f : bw → A → res bw) w l k :
  fold_w G f w (l ++ k) = (w' ← fold_w G f w l; fold_w G f w' k).
Proof.
  unfold fold_w. rewrite foldl_app. generalize (foldl (λ r x, w ← r; f w x) (Ok w) l). intros [w'| | |]; [done|..];
  cbn [mbind res_bind]; induction k as [|x k IH]; simpl; try done; by rewrite IH.
Qed.
Lemma fold_w_cons {A} (f : bw → A → res bw) w x l :
  fold_w G f w (x :: l) = (w' ← f w x; fold_w G f w' l).
Proof. change (x :: l) with ([x] ++ l). rewrite fold_w_app. unfold fold_w at 1. cbn [foldl mbind res_bind]. done. Qed.
Lemma fold_w_nil {A} (f : bw → A → res bw) w : fold_w G f w [] = Ok w.
Proof. done. Qed.

(** ** Trees *)
Lemma create_ok T m b e : treach T m → ∃ T' id, t_create G T b e = Ok (T', id) ∧ m !! id = None ∧
  treach T' (<[id := Leaf e b (t_inset G b)]> m).
Proof.
  intros H. destruct (C07_calls_return _ _ _ _ _ _ _ _ _ _ T m H) as (Hc & _ & _ & _).
  destruct (Hc b e) as (T' & id & E & Hn). exists T', id. split; [exact E|]. split; [done|].
  by eapply tr_create.
Qed.
Lemma destroy_ok T m id lf : treach T m → m !! id = Some lf →
  ∃ T', t_destroy G T id = Ok T' ∧ treach T' (delete id m).
Proof.
  intros H Hid. destruct (C07_calls_return _ _ _ _ _ _ _ _ _ _ T m H) as (_ & Hd & _ & _).
  destruct (Hd id lf Hid) as (T' & E). exists T'. split; [exact E|]. by eapply tr_destroy.
Qed.
Lemma move_ok T m id lf b : treach T m → m !! id = Some lf →
  ∃ T' r lf', t_move G T id b = Ok (T', r) ∧ lf_ent lf' = lf_ent lf ∧ lf_given lf' = b ∧ treach T' (<[id := lf']> m).
Proof.
  intros H Hid. destruct (C07_calls_return _ _ _ _ _ _ _ _ _ _ T m H) as (_ & _ & Hm & _).
  destruct (Hm id lf b Hid) as (T' & r & E).
  exists T', r, (Leaf (lf_ent lf) b (if r then t_inset G b else lf_box lf)). split; [exact E|]. split_and!; [done..|].
  by eapply tr_move.
Qed.
Lemma get_leaf T m id lf : treach T m → m !! id = Some lf → ∃ n, get_node T id = Ok n ∧ tn_c2 n = lf_ent lf.
Proof.
  intros H Hid. apply treach_inv_any in H. destruct (ti_leaf _ _ _ H id lf Hid) as (n & Hn & _ & He & _).
  exists n. split; [|done]. unfold get_node. by rewrite (nget_ok _ _ _ Hn).
Qed.

(** ** The steps *)
Ltac inv_split := split; cbn [b_tree b_np b_new b_valid b_aabb b_res b_proc b_kin b_off b_dis b_man b_next
  set_tree set_new set_aabb set_res set_ents set_tags set_man set_next].


(** What the tree updates leave alone *)
Definition same_reg w w' : Prop :=
  b_valid G w' = b_valid G w ∧ b_aabb G w' = b_aabb G w ∧ b_proc G w' = b_proc G w ∧ b_kin G w' = b_kin G w ∧
  b_off G w' = b_off G w ∧ b_dis G w' = b_dis G w ∧ b_man G w' = b_man G w ∧ b_next G w' = b_next G w.
Lemma same_refl w : same_reg w w.
Proof. done. Qed.
Lemma same_trans w1 w2 w3 : same_reg w1 w2 → same_reg w2 w3 → same_reg w1 w3.
Proof. unfold same_reg. intros (?&?&?&?&?&?&?&?) (?&?&?&?&?&?&?&?). split_and!; congruence. Qed.

Lemma binv_new w M st l k :
  binv (set_new G w l) M st → NoDup k →
  (∀ e, e ∈ k → e < b_next G w ∧ b_res G w !! e = None) →
  (∀ e, e ∈ l → is_Some (b_aabb G w !! e) → e ∈ k) →
  binv (set_new G w k) M st.
Proof.
  intros I Hnd Hk Hl. destruct I as [It Il Ir Ia _ In Ilt Im Ib Ik Id]. cbn in *.
  inv_split; try done.
  intros e He. destruct (Ia e He) as (? & [?|?]); split; auto.
Qed.

Lemma init_one_inv w M st e l :
  binv (set_new G w (e :: l)) M st →
  ∃ w' M', init_one G w e = Ok w' ∧ binv (set_new G w' l) M' st ∧ same_reg w w' ∧
    (∀ x, is_Some (b_res G w !! x) → is_Some (b_res G w' !! x)) ∧
    (is_Some (b_aabb G w !! e) → is_Some (b_res G w' !! e)) ∧ (∀ x, b_res G w' !! x ≠ None → b_res G w !! x ≠ None ∨ x = e).
Proof.
  intros I. pose proof (bi_nodup _ _ _ I) as Hnd. cbn in Hnd. apply NoDup_cons in Hnd as [Hni Hnd].
  pose proof (bi_new _ _ _ I) as Hnew. cbn in Hnew.
  unfold init_one. destruct (b_aabb G w !! e) as [b|] eqn:Eb.
  - pose (p := bool_decide (e ∈ b_proc G w)).
    assert (I' : binv (set_new G w (e :: l)) M st) by done.
    assert (Hr : b_res G w !! e = None) by (apply Hnew; left).
    assert (IL : binv (set_new G (set_new G w (e :: l)) (e :: l)) M st) by done.
    destruct (create_ok (tree_of G w p) (M p) b (Some e) (bi_tree _ _ _ I p)) as (t & id & E & Hid & Ht).
    cbv zeta. fold p. rewrite E. cbn [mbind res_bind]. rewrite bool_decide_eq_true_2 by done. cbn [require_ mbind res_bind].
    exists (set_res G (set_tree G w p t) (<[e := (id, p)]> (b_res G w))),
      (upd M p (<[id := Leaf (Some e) b (t_inset G b)]> (M p))).
    split; [done|]. split.
    + pose proof I as [It Il Ir Ia _ In Ilt Im Ib Ik Id]. cbn in *. inv_split; try done.
      * intros q. change (treach (tree_of G (set_tree G w p t) q) (upd M p (<[id:=Leaf (Some e) b (t_inset G b)]> (M p)) q)).
        rewrite tree_set. destruct (decide (q = p)) as [->|Hne]; [by rewrite upd_same|rewrite upd_other by done; apply It].
      * intros q i lf Hlf. destruct (decide (q = p)) as [->|Hne].
        -- rewrite upd_same in Hlf. destruct (decide (i = id)) as [->|Hi].
           ++ rewrite lookup_insert in Hlf. injection Hlf as <-. exists e. by rewrite lookup_insert.
           ++ rewrite lookup_insert_ne in Hlf by done. destruct (Il _ _ _ Hlf) as (x & ? & Hx). exists x.
              split; [done|]. rewrite lookup_insert_ne; [done|]. intros <-. congruence.
        -- rewrite upd_other in Hlf by done. destruct (Il _ _ _ Hlf) as (x & ? & Hx). exists x.
           split; [done|]. rewrite lookup_insert_ne; [done|]. intros <-. congruence.
      * intros x i q Hx. destruct (decide (e = x)) as [<-|Hne].
        -- rewrite lookup_insert in Hx. injection Hx as <- <-. split; [done|].
           eexists _, b. rewrite upd_same, lookup_insert. split_and!; done.
        -- rewrite lookup_insert_ne in Hx by done. destruct (Ir _ _ _ Hx) as (? & lf & bb & Hlf & ? & ? & ?).
           split; [done|]. exists lf, bb. split_and!; try done.
           destruct (decide (q = p)) as [->|?]; [|by rewrite upd_other].
           rewrite upd_same, lookup_insert_ne; [done|]. intros <-. congruence.
      * intros x Hx. destruct (Ia x Hx) as (? & Hc). split; [done|]. destruct (decide (e = x)) as [<-|Hne].
        -- left. rewrite lookup_insert. by eexists.
        -- rewrite lookup_insert_ne by done. destruct Hc as [?|[->|?]%elem_of_cons]; [by left|done|by right].
      * intros x Hx. destruct (In x) as [? ?]; [by right|]. split; [done|]. rewrite lookup_insert_ne; [done|]. by intros ->.
    + split; [done|]. cbn. split_and!.
      * intros x Hx. destruct (decide (e = x)) as [<-|?]; [rewrite lookup_insert|rewrite lookup_insert_ne]; done.
      * intros _. rewrite lookup_insert. by eexists.
      * intros x. destruct (decide (e = x)) as [<-|?]; [by right|rewrite lookup_insert_ne by done; by left].
  - exists w, M. split; [done|]. split; [|split; [done|]].
    + apply (binv_new w M st (e :: l)); [done|done| |].
      * intros x Hx. apply Hnew. by right.
      * intros x [->|?]%elem_of_cons; [|done]. rewrite Eb. by intros [? ?].
    + split_and!; [done| |auto]. by intros [? ?].
Qed.

Lemma init_fold V w M st l :
  binv (set_new G w l) M st → b_valid G w = V →
  ∃ w' M', fold_w G (init_one G) w (filter (λ e, e ∈ V) l) = Ok w' ∧
    binv (set_new G w' []) M' st ∧ same_reg w w'.
Proof.
  revert w M. induction l as [|e l IH]; intros w M I Hv.
  { exists w, M. split; [done|]. split; [done|apply same_refl]. }
  rewrite filter_cons. destruct (decide (e ∈ V)) as [He|He].
  - rewrite fold_w_cons. destruct (init_one_inv w M st e l I) as (w1 & M1 & -> & I1 & S1 & _).
    cbn [mbind res_bind]. destruct (IH w1 M1 I1) as (w2 & M2 & E2 & I2 & S2); [destruct S1; congruence|].
    exists w2, M2. split_and!; [done|done|by eapply same_trans].
  - apply (IH w M); [|done]. apply (binv_new w M st (e :: l)); [done| | |].
    + pose proof (bi_nodup _ _ _ I) as Hnd. cbn in Hnd. by apply NoDup_cons in Hnd as [_ ?].
    + intros x Hx. apply (bi_new _ _ _ I). cbn. by right.
    + intros x [->|?]%elem_of_cons Hx; [|done]. destruct (bi_aabb _ _ _ I e Hx) as [Hx' _]. cbn in Hx'. congruence.
Qed.

Lemma set_new_id w : set_new G w (b_new G w) = w.
Proof. by destruct w. Qed.
Lemma init_new_inv w M st :
  binv w M st → ∃ w' M', init_new G w = Ok w' ∧ binv w' M' st ∧ same_reg w w' ∧ b_new G w' = [].
Proof.
  intros I. unfold init_new. rewrite <- (set_new_id w) in I.
  destruct (init_fold (b_valid G w) w M st (b_new G w) I eq_refl) as (w' & M' & -> & I' & S'). cbn [mbind res_bind].
  exists (set_new G w' []), M'. done.
Qed.

(** *** destroy_separated_manifolds *)
Lemma kill_inv w M st m :
  binv w M st → is_Some (mm_body (b_man G w) !! m) →
  ∃ w', kill_manifold G w m = Ok w' ∧ binv w' M st ∧
    w' = BW G (b_tree G w) (b_np G w) (b_new G w) (b_valid G w ∖ {[m]}) (b_aabb G w) (b_res G w) (b_proc G w)
       (b_kin G w) (b_off G w ∖ {[m]}) (b_dis G w ∖ {[m]}) (b_man G w') (b_next G w) ∧
    mm_body (b_man G w') = delete m (mm_body (b_man G w)).
Proof.
  intros I [[a b] Hm]. pose proof I as [It Il Ir Ia Ind In Ilt Im Ib Ik Id].
  destruct (mstep_sim _ _ (MDestroy m) (delete m (mm_body (b_man G w))) Im) as (c & Hc & Hrel).
  { simpl. by rewrite Hm. }
  unfold kill_manifold. cbn [mstep] in Hc. rewrite Hc. cbn [mbind res_bind]. eexists. split; [done|].
  assert (Hbody : mm_body c = delete m (mm_body (b_man G w))) by apply (mr_body _ _ Hrel).
  destruct (Ib m a b Hm) as (_ & _ & _ & Hma).
  split; [|done]. inv_split; try done.
  - intros e He. destruct (Ia e He) as (? & ?). split; [|done]. apply elem_of_difference. split; [done|].
    intros ->%elem_of_singleton. rewrite Hma in He. by destruct He.
  - intros e He. apply Ilt. set_solver.
  - by rewrite Hbody.
  - rewrite Hbody. intros m' x y [Hne Hm']%lookup_delete_Some. destruct (Ib _ _ _ Hm') as (?&?&?&?). split_and!; try done.
    set_solver.
  - set_solver.
Qed.

Definition sep_far w m : Prop := ∃ a b, mm_body (b_man G w) !! m = Some (a, b) ∧ ¬ near G (g_sep G) w a b.
Lemma sep_one_inv w M st m :
  binv w M st → is_Some (mm_body (b_man G w) !! m) → m ∉ b_off G w →
  ∃ w', sep_one G w m = Ok w' ∧ binv w' M st ∧
    b_tree G w' = b_tree G w ∧ b_np G w' = b_np G w ∧ b_new G w' = b_new G w ∧ b_aabb G w' = b_aabb G w ∧
    b_res G w' = b_res G w ∧ b_proc G w' = b_proc G w ∧ b_kin G w' = b_kin G w ∧ b_off G w' = b_off G w ∧
    b_dis G w' = b_dis G w ∧ b_next G w' = b_next G w ∧
    (∀ m', m' ≠ m → mm_body (b_man G w') !! m' = mm_body (b_man G w) !! m') ∧
    (∀ a b, mm_body (b_man G w) !! m = Some (a, b) →
      (near G (g_sep G) w a b → mm_body (b_man G w') !! m = Some (a, b)) ∧
      (¬ near G (g_sep G) w a b → mm_body (b_man G w') !! m = None)).
Proof.
  intros I Hm Hoff. pose proof Hm as [[a b] Hab]. destruct (bi_body _ _ _ I m a b Hab) as ([ba Ha] & [bb Hb] & _).
  unfold sep_one. rewrite Hab. cbn [opt_res mbind res_bind]. rewrite Ha, Hb. cbn [opt_res mbind res_bind].
  destruct (touch _ _ _) eqn:Et.
  - exists w. split_and!; try done. intros a' b' E. injection E as <- <-. split; [done|].
    intros Hn. destruct Hn. exists ba, bb. done.
  - destruct (kill_inv w M st m I Hm) as (w' & -> & I' & E & Hbody). exists w'. rewrite E. cbn.
    assert (Ho : b_off G w ∖ {[m]} = b_off G w) by (apply leibniz_equiv; set_solver).
    assert (Hd : b_dis G w ∖ {[m]} = b_dis G w).
    { apply leibniz_equiv. pose proof (bi_dis _ _ _ I). set_solver. }
    split_and!; try done.
    + by rewrite <- E.
    + intros m' Hne. by rewrite Hbody, lookup_delete_ne.
    + intros a' b' E'. injection E' as <- <-. split.
      * intros (ba' & bb' & Ha' & Hb' & Ht). congruence.
      * intros _. by rewrite Hbody, lookup_delete.
Qed.

(** What the separation of a set of manifolds changes *)
Definition sep_rel (S : nat → Prop) w w' : Prop :=
  b_tree G w' = b_tree G w ∧ b_np G w' = b_np G w ∧ b_new G w' = b_new G w ∧ b_aabb G w' = b_aabb G w ∧
  b_res G w' = b_res G w ∧ b_proc G w' = b_proc G w ∧ b_kin G w' = b_kin G w ∧ b_off G w' = b_off G w ∧
  b_dis G w' = b_dis G w ∧ b_next G w' = b_next G w ∧
  (∀ m, ¬ S m → mm_body (b_man G w') !! m = mm_body (b_man G w) !! m) ∧
  (∀ m, mm_body (b_man G w) !! m = None → mm_body (b_man G w') !! m = None) ∧
  (∀ m a b, S m → mm_body (b_man G w) !! m = Some (a, b) →
     (near G (g_sep G) w a b → mm_body (b_man G w') !! m = Some (a, b)) ∧
     (¬ near G (g_sep G) w a b → mm_body (b_man G w') !! m = None)).
Lemma near_eq v w w' a b : b_aabb G w' = b_aabb G w → near G v w' a b ↔ near G v w a b.
Proof. unfold near. by intros ->. Qed.

Lemma sep_fold l : ∀ w M st,
  binv w M st → NoDup l → (∀ m, m ∈ l → is_Some (mm_body (b_man G w) !! m) ∧ m ∉ b_off G w) →
  ∃ w', fold_w G (sep_one G) w l = Ok w' ∧ binv w' M st ∧ sep_rel (λ m, m ∈ l) w w'.
Proof.
  induction l as [|m l IH]; intros w M st I Hnd Hl.
  { exists w. split; [done|]. split; [done|]. unfold sep_rel. split_and!; try done. intros m a b Hm. by apply elem_of_nil in Hm. }
  apply NoDup_cons in Hnd as [Hni Hnd]. destruct (Hl m) as [Hm Ho]; [left|].
  destruct (sep_one_inv w M st m I Hm Ho) as (w1 & E1 & I1 & F1 & F2 & F3 & F4 & F5 & F6 & F7 & F8 & F9 & F10 & Hne & Hself).
  rewrite fold_w_cons, E1. cbn [mbind res_bind].
  destruct (IH w1 M st I1 Hnd) as (w2 & E2 & I2 & (D1 & D2 & D3 & D4 & D5 & D6 & D7 & D8 & D9 & D10 & Hno & Hnone & Hin)).
  { intros x Hx. destruct (Hl x) as [Hx1 Hx2]; [by right|]. rewrite Hne, F8; [done|]. intros ->. done. }
  exists w2. split; [done|]. split; [done|]. unfold sep_rel. split_and!; try congruence.
  - intros x Hx. apply not_elem_of_cons in Hx as [Hx1 Hx2]. rewrite Hno by done. by apply Hne.
  - intros x Hx. destruct (decide (x = m)) as [->|Hxm]; [rewrite Hx in Hm; by destruct Hm|]. apply Hnone. by rewrite Hne.
  - intros x a b Hx Hxb. destruct (decide (x = m)) as [->|Hxm].
    + destruct (Hself a b Hxb) as [H1 H2]. rewrite Hno by done. auto.
    + apply elem_of_cons in Hx as [->|Hx]; [done|]. rewrite <- Hne in Hxb by done.
      destruct (Hin x a b Hx Hxb) as [H1 H2]. rewrite (near_eq _ w w1) in H1, H2 by done. auto.
Qed.

Context (ord : gset nat → list nat) (Hord : ∀ s, ord s ≡ₚ elements s).
Lemma ord_elem s x : x ∈ ord s ↔ x ∈ s.
Proof. rewrite (Hord s). apply elem_of_elements. Qed.
Lemma ord_nodup s : NoDup (ord s).
Proof. rewrite (Hord s). apply NoDup_elements. Qed.

Lemma sep_inv w M st :
  binv w M st → ∃ w', destroy_separated G ord w = Ok w' ∧ binv w' M st ∧ sep_rel (λ m, m ∉ b_off G w) w w'.
Proof.
  intros I. unfold destroy_separated, man_view.
  destruct (sep_fold (ord (dom (mm_body (b_man G w)) ∖ b_off G w)) w M st I) as (w' & E & I' & HR).
  { apply ord_nodup. }
  { intros m Hm. apply ord_elem, elem_of_difference in Hm as [Hm ?]. split; [|done]. by apply elem_of_dom. }
  exists w'. split; [done|]. split; [done|]. unfold sep_rel in *.
  destruct HR as (?&?&?&?&?&?&?&?&?&?& Hno & Hnone & Hin). split_and!; try done.
  - intros m Hm. apply Hno. rewrite ord_elem. set_solver.
  - intros m a b Hm Hab. apply Hin; [|done]. apply ord_elem, elem_of_difference. split; [|done]. apply elem_of_dom. eauto.
Qed.

(** *** move_aabbs *)
Lemma move_one_inv w M st e (p : bool) :
  binv w M st → is_Some (b_res G w !! e) → p = bool_decide (e ∈ b_proc G w) →
  ∃ w' M', move_one G p w e = Ok w' ∧ binv w' M' (st ∖ {[e]}) ∧ same_reg w w' ∧ b_new G w' = b_new G w ∧
    b_res G w' = b_res G w.
Proof.
  intros I [[id q] Hr] Hp. pose proof I as [It Il Ir Ia Ind In Ilt Im Ib Ik Id].
  destruct (Ir _ _ _ Hr) as (Hq & lf & b & Hlf & Hent & Hb & _). assert (q = p) as -> by congruence.
  unfold move_one. rewrite Hr. cbn [opt_res mbind res_bind]. rewrite Hb. cbn [opt_res mbind res_bind].
  destruct (move_ok (tree_of G w p) (M p) id lf b (It p) Hlf) as (t & r & lf' & -> & Hent' & Hgiv & Ht).
  cbn [mbind res_bind]. exists (set_tree G w p t), (upd M p (<[id := lf']> (M p))). split; [done|].
  split; [|done]. inv_split; try done.
  - intros q. rewrite tree_set. destruct (decide (q = p)) as [->|Hne]; [by rewrite upd_same|rewrite upd_other by done; apply It].
  - intros q i l Hl. destruct (decide (q = p)) as [->|Hne]; [|rewrite upd_other in Hl by done; by apply Il].
    rewrite upd_same in Hl. destruct (decide (id = i)) as [<-|Hi].
    + rewrite lookup_insert in Hl. injection Hl as <-. exists e. by rewrite Hent'.
    + rewrite lookup_insert_ne in Hl by done. by apply Il.
  - intros x i q Hx. destruct (Ir _ _ _ Hx) as (Hq' & lx & bx & Hlx & Hex & Hbx & Hst). split; [done|].
    destruct (decide (q = p)) as [->|Hne].
    + rewrite upd_same. destruct (decide (id = i)) as [<-|Hi].
      * rewrite lookup_insert. assert (x = e) as -> by (rewrite Hlf in Hlx; congruence).
        exists lf', b. split_and!; try done; congruence.
      * rewrite lookup_insert_ne by done. exists lx, bx. split_and!; try done. intros Hn. apply Hst.
        intros Hx'. apply Hn. apply elem_of_difference. split; [done|]. intros ->%elem_of_singleton. congruence.
    + rewrite upd_other by done. exists lx, bx. split_and!; try done. intros Hn. apply Hst.
      intros Hx'. apply Hn. apply elem_of_difference. split; [done|]. intros ->%elem_of_singleton. congruence.
Qed.

Lemma move_fold (p : bool) l : ∀ w M st,
  binv w M st → (∀ e, e ∈ l → is_Some (b_res G w !! e) ∧ p = bool_decide (e ∈ b_proc G w)) →
  ∃ w' M', fold_w G (move_one G p) w l = Ok w' ∧ binv w' M' (st ∖ list_to_set l) ∧ same_reg w w' ∧
    b_new G w' = b_new G w ∧ b_res G w' = b_res G w.
Proof.
  induction l as [|e l IH]; intros w M st I Hl.
  { exists w, M. split; [done|]. split; [|done]. replace (st ∖ list_to_set []) with st; [done|].
    apply leibniz_equiv. set_solver. }
  destruct (Hl e) as [He Hp]; [left|].
  destruct (move_one_inv w M st e p I He Hp) as (w1 & M1 & E1 & I1 & S1 & N1 & R1).
  rewrite fold_w_cons, E1. cbn [mbind res_bind].
  destruct (IH w1 M1 _ I1) as (w2 & M2 & E2 & I2 & S2 & N2 & R2).
  { intros x Hx. rewrite R1. destruct S1 as (_ & _ & -> & _). apply Hl. by right. }
  exists w2, M2. split; [done|]. split.
  { replace (st ∖ list_to_set (e :: l)) with (st ∖ {[e]} ∖ list_to_set l); [done|]. apply leibniz_equiv. set_solver. }
  split; [by eapply same_trans|]. split; congruence.
Qed.

Lemma binv_weaken w M st st' :
  binv w M st → (∀ e, e ∈ st → is_Some (b_aabb G w !! e) → e ∈ st') → binv w M st'.
Proof.
  intros [It Il Ir Ia Ind In Ilt Im Ib Ik Id] Hs. split; try done.
  intros e id p Hr. destruct (Ir _ _ _ Hr) as (? & lf & b & ? & ? & Hb & Hst). split; [done|].
  exists lf, b. split_and!; try done. intros Hn. apply Hst. intros He. apply Hn, Hs; [done|]. rewrite Hb. by eexists.
Qed.

Lemma move_inv w M st :
  binv w M st → b_new G w = [] →
  ∃ w' M', move_aabbs G ord w = Ok w' ∧ binv w' M' (st ∖ movers G w) ∧ same_reg w w' ∧ b_new G w' = [] ∧
    b_res G w' = b_res G w.
Proof.
  intros I Hnew. unfold move_aabbs.
  set (l1 := move_view G ord w (b_proc G w)).
  destruct (move_fold true l1 w M st I) as (w1 & M1 & E1 & I1 & S1 & N1 & R1).
  { intros e He. apply ord_elem in He. rewrite !elem_of_difference, !elem_of_intersection in He.
    destruct He as [[[He _] Hp] _]. split; [by apply elem_of_dom|]. by rewrite bool_decide_eq_true_2. }
  rewrite E1. cbn [mbind res_bind].
  set (l2 := move_view G ord w1 (b_kin G w1)).
  destruct (move_fold false l2 w1 M1 _ I1) as (w2 & M2 & E2 & I2 & S2 & N2 & R2).
  { intros e He. apply ord_elem in He. rewrite !elem_of_difference, !elem_of_intersection in He.
    destruct He as [[[He _] Hp] _]. split; [by apply elem_of_dom|]. rewrite bool_decide_eq_false_2; [done|].
    intros Hq. by apply (bi_kin _ _ _ I1 e). }
  exists w2, M2. split; [done|]. split; [|split_and!; [by eapply same_trans|congruence|congruence]].
  eapply binv_weaken; [exact I2|]. intros e He Ha.
  assert (Sa : b_aabb G w2 = b_aabb G w) by (destruct S1 as (_&?&_), S2 as (_&?&_); congruence).
  rewrite Sa in Ha.
  destruct (bi_aabb _ _ _ I e Ha) as (_ & [Hr|Hn]); [|rewrite Hnew in Hn; by apply elem_of_nil in Hn].
  rewrite !elem_of_difference in He. destruct He as [[He Hn1] Hn2]. apply elem_of_difference. split; [done|].
  intros Hmv. unfold movers in Hmv. apply elem_of_difference in Hmv as [[Hp|Hk]%elem_of_union Ho].
  - apply Hn1. apply elem_of_list_to_set, ord_elem. rewrite !elem_of_difference, !elem_of_intersection, !elem_of_dom. done.
  - apply Hn2. apply elem_of_list_to_set, ord_elem. rewrite !elem_of_difference, !elem_of_intersection, !elem_of_dom.
    destruct S1 as (_ & -> & _ & -> & -> & _). rewrite R1. done.
Qed.
End proofs.

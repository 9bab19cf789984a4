(** The invariant of the dynamic tree over all histories. *)
From Verif Require Import Outcome Chain TreeModel TreeSpec TreeProofs TreeProofs2.

Section proofs.
Context {box scalar : Type}.
Context (enclose : box → box → box) (inset : box → box) (contains : box → box → bool).
Context (area : box → scalar) (s_add s_sub s_mul : scalar → scalar → scalar)
        (s_two : scalar) (s_lt : scalar → scalar → bool) (box0 : box).
Context (sub : box → box → Prop).
Context (enclose_l : ∀ a b, sub a (enclose a b)) (enclose_r : ∀ a b, sub b (enclose a b)).
Context (inset_sub : ∀ b, sub b (inset b)) (contains_sub : ∀ a b, contains a b = true → sub b a).
Notation tnode := (tnode box).
Notation tree := (tree box).
Implicit Types ns : list tnode.
Notation create := (create enclose inset area s_add s_sub s_mul s_two s_lt box0).
Notation destroy := (destroy enclose).
Notation move := (move enclose inset contains area s_add s_sub s_mul s_two s_lt box0).
Notation treach := (treach enclose inset contains area s_add s_sub s_mul s_two s_lt box0).
Notation fit := (fit sub).
Notation tst := (tst sub).

Ltac upds := rewrite nupd_ok by (rewrite ?alter_length; done); cbn [mbind res_bind].

Record tinv (T : tree) (m : gmap nat (leaf box)) : Prop := {
  ti_st : ∃ ot fc, tst T ot [] fc ∧ (∀ i, i ∈ oleaves ot ↔ is_Some (m !! i));
  ti_leaf : ∀ i lf, m !! i = Some lf → ∃ n, t_nodes T !! i = Some n ∧
    tn_c1 n = None ∧ tn_c2 n = lf_ent lf ∧ tn_box n = lf_box lf;
  ti_given : ∀ i lf, m !! i = Some lf → sub (lf_given lf) (lf_box lf) }.

Lemma rep_subtree ns par t :
  rep ns par t → fit ns t → ∃ h n, subtree sub ns par (bid t) (ids t) (leaves t) h ∧
    ns !! bid t = Some n ∧ tn_h n = h.
Proof using Type.
  revert par. induction t as [i|i l IHl r IHr]; intros par Hr Hf.
  - destruct Hr as (n & Hn & Hl & H1), Hf as (n' & Hn' & Hh). simplify_eq.
    exists 0%Z, n. split_and!; try done. by econstructor.
  - destruct Hr as (n & Hn & Hl & H1 & H2 & Rl & Rr).
    destruct Hf as (Fl & Fr & n' & nl & nr & Hn' & Hnl & Hnr & Hh & Sl & Sr). simplify_eq.
    destruct (IHl _ Rl Fl) as (hl & nl' & Tl & Hnl' & Hhl).
    destruct (IHr _ Rr Fr) as (hr & nr' & Tr & Hnr' & Hhr). simplify_eq.
    eexists _, n. split_and!; [|done|].
    + simpl. eapply st_node; try done. rewrite Hh. lia.
    + rewrite Hh. lia.
Qed.

Lemma tinv_ok T m : tinv T m → tree_ok sub T m.
Proof using Type.
  intros [(ot & fc & (P & Hot) & Hlv) Hl Hg]. split; [|done|done].
  exists (oids ot), (oleaves ot), fc. split.
  - destruct ot as [t|]; [|by rewrite Hot]. destruct Hot as (-> & Hr & Hf).
    destruct (rep_subtree _ _ _ Hr Hf) as (h & n & H & _). by exists h.
  - split; [done|]. split; [apply P|]. split; [apply P|]. intros i. symmetry. apply P.
Qed.

Lemma tinv_empty : tinv t_empty ∅.
Proof using Type.
  split.
  - exists None, []. split.
    + split; [|done]. split; simpl; try done.
      * constructor.
      * intros i. rewrite elem_of_nil. lia.
      * intros x Hx. by apply elem_of_nil in Hx.
    + intros i. simpl. rewrite elem_of_nil, lookup_empty. split; [done|]. by intros [? ?].
  - intros i lf H. by rewrite lookup_empty in H.
  - intros i lf H. by rewrite lookup_empty in H.
Qed.

Lemma chain_seq nx k n :
  (∀ i, k ≤ i < k + n → nx i = Some (if decide (S i = k + n) then None else Some (S i))) →
  chain nx (if decide (n = 0) then None else Some k) (seq k n).
Proof using Type.
  revert k. induction n as [|n IH]; intros k Hx; simpl; [done|]. split; [done|].
  rewrite Hx by lia. eexists. split; [done|].
  assert (chain nx (if decide (n = 0) then None else Some (S k)) (seq (S k) n)) as Hc.
  { apply IH. intros i Hi. rewrite Hx by lia. by replace (S k + n) with (k + S n) by lia. }
  destruct (decide (n = 0)) as [->|Hn].
  - rewrite decide_True by lia. done.
  - rewrite decide_False by lia. done.
Qed.

Lemma tinv_clear T : tinv (tclear T) ∅.
Proof using Type.
  split; [|intros i lf H; by rewrite lookup_empty in H..].
  exists None, (seq 0 (length (t_nodes T))). split; cycle 1.
  { intros i. simpl. rewrite elem_of_nil, lookup_empty. split; [done|]. by intros [? ?]. }
  split; [|by unfold tclear; destruct (t_nodes T)].
  assert (Hlen : length (t_nodes (tclear T)) = length (t_nodes T)).
  { unfold tclear. destruct (t_nodes T) as [|n0 ns0] eqn:E; [done|]. cbn [t_nodes]. by rewrite imap_length. }
  split; simpl.
  - apply NoDup_seq.
  - intros i. rewrite Hlen, elem_of_seq. lia.
  - assert (t_free (tclear T) = if decide (length (t_nodes T) = 0) then None else Some 0) as ->.
    { unfold tclear. by destruct (t_nodes T). }
    apply chain_seq. intros i Hi. unfold flink, tclear.
    destruct (t_nodes T) as [|n0 ns0] eqn:E; [simpl in Hi; lia|]. rewrite <- E in *. cbn [t_nodes].
    rewrite list_lookup_imap. destruct (lookup_lt_is_Some_2 (t_nodes T) i) as [n Hn]; [lia|].
    rewrite Hn. simpl. done.
  - intros x Hx. by apply elem_of_nil in Hx.
Qed.

Lemma tinv_create T m b e :
  tinv T m → ∃ T' id, create T b e = Ok (T', id) ∧ m !! id = None ∧
    tinv T' (<[id := Leaf e b (inset b)]> m).
Proof using enclose_l enclose_r inset_sub.
  intros [(ot & fc & (P & Hot) & Hlv) Hl Hg]. unfold TreeModel.create.
  destruct (allocate_spec box0 _ _ _ _ P) as (T1 & id & fc1 & b1 & -> & P1 & Hroot1 & Hs1 & Hid & Hidn & _).
  cbn [mbind res_bind].
  assert (Hidlt : id < length (t_nodes T1)) by (by eapply lookup_lt_Some).
  do 2 upds.
  set (ns2 := alter _ id _). set (T2 := Tree _ ns2 _).
  assert (Hid2 : ns2 !! id = Some (TN None None e (inset b) 0%Z)).
  { subst ns2. rewrite !list_lookup_alter, Hid. done. }
  assert (Hs2 : ∀ i, i ≠ id → ns2 !! i = t_nodes T1 !! i).
  { intros i Hi. subst ns2. by rewrite !list_lookup_alter_ne by done. }
  rewrite app_nil_r in Hidn.
  assert (Hso : ∀ i, i ∈ oids ot → ns2 !! i = t_nodes T !! i).
  { intros i Hi. rewrite Hs2 by (by intros ->). apply Hs1. by rewrite app_nil_r. }
  assert (St2 : tst T2 ot [id] fc1).
  { split.
    - eapply pst_change; [exact P1|done|subst T2 ns2; simpl; by rewrite !alter_length|done| |].
      + intros i Hi. simpl. apply Hs2. intros ->.
        pose proof (ps_nodup _ _ _ _ P1) as Hnd. apply NoDup_app in Hnd as (_ & _ & Hnd).
        simpl in Hnd. by apply NoDup_cons in Hnd as [? _].
      + intros x ->%elem_of_list_singleton. eexists. split; [exact Hid2|done].
    - destruct ot as [t|]; simpl; [|congruence]. destruct Hot as (Hr & Hrep & Hfit). split_and!.
      + congruence.
      + eapply rep_ext; [|done]. done.
      + eapply fit_same; [|done|done]. done. }
  destruct (insert_spec enclose area s_add s_sub s_mul s_two s_lt box0 sub enclose_l enclose_r T2 id ot [] fc1 St2)
    as (T3 & t3 & fc3 & -> & St3 & Hlv3 & Hsl).
  cbn [mbind res_bind].
  assert (Hmid : m !! id = None).
  { destruct (m !! id) as [lf|] eqn:E; [|done]. exfalso. apply Hidn.
    assert (id ∈ oleaves ot) as Hin by (apply Hlv; eauto).
    destruct ot as [t|]; [by apply leaves_ids|by apply elem_of_nil in Hin]. }
  exists T3, id. split; [done|]. split; [done|]. split.
  - exists (Some t3), fc3. split; [done|]. intros i. simpl. rewrite Hlv3, elem_of_cons, Hlv.
    destruct (decide (i = id)) as [->|Hne].
    + rewrite lookup_insert. split; [eauto|]. by left.
    + rewrite lookup_insert_ne by done. split; [intros [?|?]; done|]. by right.
  - intros i lf Hi. destruct (decide (i = id)) as [->|Hne].
    + rewrite lookup_insert in Hi. simplify_eq.
      destruct (Hsl id _ ltac:(by left) Hid2) as (n' & Hn' & H1 & H2 & H3). exists n'. simpl. done.
    + rewrite lookup_insert_ne in Hi by done. destruct (Hl _ _ Hi) as (n & Hn & H1 & H2 & H3).
      assert (Hil : i ∈ oleaves ot) by (apply Hlv; eauto).
      destruct (Hsl i n) as (n' & Hn' & G1 & G2 & G3).
      * by right.
      * simpl. rewrite Hso; [done|]. destruct ot; [by apply leaves_ids|by apply elem_of_nil in Hil].
      * exists n'. split_and!; congruence.
  - intros i lf Hi. destruct (decide (i = id)) as [->|Hne].
    + rewrite lookup_insert in Hi. simplify_eq. simpl. done.
    + rewrite lookup_insert_ne in Hi by done. eauto.
Qed.

Lemma tinv_destroy T m id lf :
  tinv T m → m !! id = Some lf → ∃ T', destroy T id = Ok T' ∧ tinv T' (delete id m).
Proof using enclose_l enclose_r.
  intros [(ot & fc & St & Hlv) Hl Hg] Hid. unfold TreeModel.destroy.
  destruct (Hl _ _ Hid) as (n & Hn & H1 & H2 & H3).
  rewrite (nget_ok _ _ _ Hn). cbn [mbind res_bind]. unfold tleaf. rewrite bool_decide_true by done.
  cbn [assert_ mbind res_bind].
  assert (Hin : id ∈ oleaves ot) by (apply Hlv; eauto).
  destruct ot as [t|]; [|by apply elem_of_nil in Hin]. simpl in Hin.
  destruct (remove_spec enclose sub enclose_l enclose_r T id t [] fc St Hin)
    as (T1 & ot1 & fc1 & -> & (P1 & Hot1) & Hlv1 & Hsl). cbn [mbind res_bind].
  destruct (tfree_spec _ _ _ _ _ P1) as (T2 & -> & P2 & Hr2 & Hs2 & _).
  exists T2. split; [done|].
  pose proof (ps_nodup _ _ _ _ P1) as Hnd1.
  assert (Hidn : id ∉ oids ot1).
  { intros Hi. apply NoDup_app in Hnd1 as (_ & Hd & _). apply (Hd _ Hi). simpl. by left. }
  assert (Hids1 : ∀ i, i ∈ oleaves ot1 → i ∈ oids ot1).
  { intros i Hi. destruct ot1; [by apply leaves_ids|done]. }
  simpl in Hlv.
  split.
  - exists ot1, (id :: fc1). split.
    + split; [done|]. destruct ot1 as [t1|]; [|congruence]. destruct Hot1 as (Hr & Hrep & Hfit). split_and!.
      * congruence.
      * eapply rep_ext; [|done]. intros i Hi. apply Hs2. by intros ->.
      * eapply fit_same; [|done|done]. intros i Hi. apply Hs2. by intros ->.
    + intros i. destruct (decide (i = id)) as [->|Hne].
      * rewrite lookup_delete. split; [|by intros [? ?]]. intros Hi. by apply Hids1 in Hi.
      * rewrite lookup_delete_ne by done. rewrite <- Hlv, <- Hlv1, elem_of_cons. split; [by right|].
        by intros [?|?].
  - intros i lf' Hi. apply lookup_delete_Some in Hi as [Hne Hi].
    destruct (Hl _ _ Hi) as (ni & Hni & G1 & G2 & G3).
    destruct (Hsl i ni) as (n' & Hn' & K1 & K2 & K3); [by apply Hlv; eauto|done|].
    exists n'. rewrite Hs2 by done. split_and!; congruence.
  - intros i lf' Hi. apply lookup_delete_Some in Hi as [Hne Hi]. eauto.
Qed.

Lemma tinv_move T m id lf b :
  tinv T m → m !! id = Some lf →
  ∃ T', move T id b = Ok (T', negb (contains (lf_box lf) b)) ∧
    (contains (lf_box lf) b = true → T' = T) ∧
    tinv T' (<[id := Leaf (lf_ent lf) b (if contains (lf_box lf) b then lf_box lf else inset b)]> m).
Proof using enclose_l enclose_r inset_sub contains_sub.
  intros [(ot & fc & St & Hlv) Hl Hg] Hid. unfold TreeModel.move.
  destruct (Hl _ _ Hid) as (n & Hn & H1 & H2 & H3).
  rewrite (nget_ok _ _ _ Hn). cbn [mbind res_bind]. unfold tleaf. rewrite bool_decide_true by done.
  cbn [assert_ mbind res_bind]. rewrite H3.
  destruct (contains (lf_box lf) b) eqn:Hc.
  { exists T. split; [done|]. split; [done|]. split.
    - exists ot, fc. split; [done|]. intros i. rewrite Hlv. destruct (decide (i = id)) as [->|Hne].
      + rewrite lookup_insert, Hid. split; eauto.
      + by rewrite lookup_insert_ne.
    - intros i lf' Hi. destruct (decide (i = id)) as [->|Hne].
      + rewrite lookup_insert in Hi. simplify_eq. exists n. done.
      + rewrite lookup_insert_ne in Hi by done. eauto.
    - intros i lf' Hi. destruct (decide (i = id)) as [->|Hne].
      + rewrite lookup_insert in Hi. simplify_eq. simpl. by apply contains_sub.
      + rewrite lookup_insert_ne in Hi by done. eauto. }
  assert (Hin : id ∈ oleaves ot) by (apply Hlv; eauto).
  destruct ot as [t|]; [|by apply elem_of_nil in Hin]. simpl in Hin, Hlv.
  destruct (remove_spec enclose sub enclose_l enclose_r T id t [] fc St Hin)
    as (T1 & ot1 & fc1 & -> & (P1 & Hot1) & Hlv1 & Hsl). cbn [mbind res_bind].
  destruct (Hsl id n Hin Hn) as (n1 & Hn1 & K1 & K2 & K3).
  assert (Hidlt : id < length (t_nodes T1)) by (by eapply lookup_lt_Some).
  upds. set (ns2 := alter _ id _). set (T2 := Tree _ ns2 _).
  assert (Hid2 : ns2 !! id = Some (set_box (inset b) n1)).
  { subst ns2. rewrite !list_lookup_alter, Hn1. done. }
  assert (Hs2 : ∀ i, i ≠ id → ns2 !! i = t_nodes T1 !! i).
  { intros i Hi. subst ns2. by rewrite !list_lookup_alter_ne by done. }
  pose proof (ps_nodup _ _ _ _ P1) as Hnd1.
  assert (Hidn : id ∉ oids ot1).
  { intros Hi. apply NoDup_app in Hnd1 as (_ & Hd & _). apply (Hd _ Hi). simpl. by left. }
  assert (Hids1 : ∀ i, i ∈ oleaves ot1 → i ∈ oids ot1).
  { intros i Hi. destruct ot1; [by apply leaves_ids|done]. }
  assert (St2 : tst T2 ot1 [id] fc1).
  { split.
    - eapply pst_change; [exact P1|done|subst T2 ns2; simpl; by rewrite !alter_length|done| |].
      + intros i Hi. simpl. apply Hs2. intros ->.
        apply NoDup_app in Hnd1 as (_ & _ & Hnd).
        simpl in Hnd. by apply NoDup_cons in Hnd as [? _].
      + intros x ->%elem_of_list_singleton. eexists. split; [exact Hid2|].
        destruct (ps_loose _ _ _ _ P1 id) as (n1' & Hn1' & ? & ?); [by left|]. simplify_eq. done.
    - destruct ot1 as [t1|]; [|done]. destruct Hot1 as (Hr & Hrep & Hfit). split_and!.
      + done.
      + eapply rep_ext; [|done]. intros i Hi. apply Hs2. by intros ->.
      + eapply fit_same; [|done|done]. intros i Hi. apply Hs2. by intros ->. }
  destruct (insert_spec enclose area s_add s_sub s_mul s_two s_lt box0 sub enclose_l enclose_r T2 id ot1 [] fc1 St2)
    as (T3 & t3 & fc3 & -> & St3 & Hlv3 & Hsl3).
  cbn [mbind res_bind].
  exists T3. split; [done|]. split; [done|]. split.
  - exists (Some t3), fc3. split; [done|]. intros i. simpl. rewrite Hlv3, Hlv1, Hlv.
    destruct (decide (i = id)) as [->|Hne].
    + rewrite lookup_insert, Hid. split; eauto.
    + by rewrite lookup_insert_ne.
  - intros i lf' Hi. destruct (decide (i = id)) as [->|Hne].
    + rewrite lookup_insert in Hi. simplify_eq.
      destruct (Hsl3 id _ ltac:(by left) Hid2) as (n' & Hn' & G1 & G2 & G3). exists n'. simpl in *.
      split_and!; congruence.
    + rewrite lookup_insert_ne in Hi by done. destruct (Hl _ _ Hi) as (ni & Hni & G1 & G2 & G3).
      assert (Hil : i ∈ leaves t) by (apply Hlv; eauto).
      destruct (Hsl i ni Hil Hni) as (n1' & Hn1' & J1 & J2 & J3).
      destruct (Hsl3 i n1') as (n' & Hn' & L1 & L2 & L3).
      * by rewrite Hlv1.
      * simpl. by rewrite Hs2.
      * exists n'. split_and!; congruence.
  - intros i lf' Hi. destruct (decide (i = id)) as [->|Hne].
    + rewrite lookup_insert in Hi. simplify_eq. simpl. done.
    + rewrite lookup_insert_ne in Hi by done. eauto.
Qed.

Lemma treach_inv T m : treach T m → tinv T m.
Proof using enclose_l enclose_r inset_sub contains_sub.
  induction 1 as [|T m b e T' id _ IH Hc|T m id lf T' _ IH Hid Hd|T m id lf b T' mv _ IH Hid Hm|T m _ IH].
  - apply tinv_empty.
  - destruct (tinv_create T m b e IH) as (T1 & id1 & Hc' & _ & ?). rewrite Hc in Hc'. by simplify_eq.
  - destruct (tinv_destroy T m id lf IH Hid) as (T1 & Hd' & ?). rewrite Hd in Hd'. by simplify_eq.
  - destruct (tinv_move T m id lf b IH Hid) as (T1 & Hm' & _ & Hi). rewrite Hm in Hm'. simplify_eq.
    destruct (contains (lf_box lf) b); done.
  - apply tinv_clear.
Qed.

(** ** Queries *)
Fixpoint hits ns (test : box → bool) (u : bt) : list nat :=
  match ns !! bid u with
  | None => []
  | Some n =>
    if test (tn_box n) then
      match u with
      | L i => [i]
      | N i l r => hits ns test r ++ hits ns test l
      end
    else []
  end.
Definition stack_ids (us : list bt) : list nat := us ≫= ids.

Lemma stack_ids_length u us : length (stack_ids (u :: us)) = length (ids u) + length (stack_ids us).
Proof using Type. change (stack_ids (u :: us)) with (ids u ++ stack_ids us). apply app_length. Qed.

Lemma traverse_loop_spec ns test fuel : ∀ us,
  (∀ u, u ∈ us → ∃ par, rep ns par u) → length (stack_ids us) ≤ fuel →
  traverse_loop ns test fuel ((Some ∘ bid) <$> us) = Ok (us ≫= hits ns test).
Proof using Type.
  induction fuel as [|fuel IH]; intros us Hus Hf.
  - destruct us as [|u us]; [done|]. exfalso. rewrite stack_ids_length in Hf. pose proof (bid_ids u) as Hb. destruct (ids u); [by apply elem_of_nil in Hb|].
    simpl in Hf. lia.
  - destruct us as [|u us]; [done|]. rewrite stack_ids_length in Hf.
    destruct (Hus u) as [par Hu]; [by left|].
    assert (Hus' : ∀ v, v ∈ us → ∃ par, rep ns par v) by (intros v Hv; apply Hus; by right).
    cbn [fmap list_fmap compose traverse_loop]. destruct (rep_root _ _ _ Hu) as (n & Hn & _).
    rewrite (nget_ok _ _ _ Hn). cbn [mbind res_bind].
    destruct u as [i|i l r]; simpl in Hf.
    + destruct Hu as (n' & Hn' & _ & H1). simpl in Hn. assert (n' = n) as -> by congruence.
      assert (Hrec : traverse_loop ns test fuel ((Some ∘ bid) <$> us) = Ok (us ≫= hits ns test)).
      { apply IH; [done|]. lia. }
      simpl (bid (L i)).
      cbn [mbind list_bind hits bid]. rewrite Hn. destruct (test (tn_box n)).
      * unfold tleaf. rewrite bool_decide_true by done. rewrite Hrec. done.
      * rewrite Hrec. done.
    + destruct Hu as (n' & Hn' & _ & H1 & H2 & Rl & Rr). simpl in Hn. assert (n' = n) as -> by congruence.
      cbn [mbind list_bind hits bid]. rewrite Hn. destruct (test (tn_box n)).
      * unfold tleaf. rewrite bool_decide_false by (by rewrite H1). rewrite H1, H2.
        change (Some (bid r) :: Some (bid l) :: ((Some ∘ bid) <$> us))
          with ((Some ∘ bid) <$> (r :: l :: us)).
        rewrite IH.
        -- cbn [mbind list_bind]. by rewrite (assoc_L (++)).
        -- intros v [->|[->|Hv]%elem_of_cons]%elem_of_cons; eauto.
        -- rewrite !stack_ids_length. rewrite app_length in Hf. lia.
      * rewrite IH; [done|done|]. rewrite app_length in Hf. lia.
Qed.

Lemma hits_leaves ns test u i : i ∈ hits ns test u → i ∈ leaves u.
Proof using Type.
  induction u as [j|j l IHl r IHr]; simpl; destruct (ns !! j); try (by intros ?%elem_of_nil);
    destruct (test _); try (by intros ?%elem_of_nil); [done|].
  rewrite !elem_of_app. intros [?|?]; auto.
Qed.
Lemma hits_test ns test u i : i ∈ hits ns test u → ∃ n, ns !! i = Some n ∧ test (tn_box n) = true.
Proof using Type.
  induction u as [j|j l IHl r IHr]; simpl; destruct (ns !! j) as [n|] eqn:Hn; try (by intros ?%elem_of_nil);
    destruct (test _) eqn:Ht; try (by intros ?%elem_of_nil).
  - intros ->%elem_of_list_singleton. eauto.
  - rewrite elem_of_app. intros [?|?]; auto.
Qed.
Lemma hits_nodup ns test u : NoDup (ids u) → NoDup (hits ns test u).
Proof using Type.
  induction u as [j|j l IHl r IHr]; simpl; intros Hnd.
  - destruct (ns !! j); [destruct (test _)|]; try constructor; try constructor. by intros ?%elem_of_nil.
  - apply NoDup_cons in Hnd as [_ Hnd]. apply NoDup_app in Hnd as (Hl & Hd & Hr).
    destruct (ns !! j); [destruct (test _)|]; try constructor. apply NoDup_app. split_and!; auto.
    intros i Hi Hi'. apply (Hd i); [by eapply leaves_ids, hits_leaves|by eapply leaves_ids, hits_leaves].
Qed.
(** A test that only grows with the box is passed by all ancestors of a leaf that passes it. *)
Lemma hits_complete ns par (test : box → bool) u i n :
  (∀ a b, sub a b → test a = true → test b = true) →
  rep ns par u → fit ns u → i ∈ leaves u → ns !! i = Some n → test (tn_box n) = true →
  i ∈ hits ns test u ∧ ∃ m, ns !! bid u = Some m ∧ test (tn_box m) = true.
Proof using Type.
  intros Hmono. revert par. induction u as [j|j l IHl r IHr]; intros par Hr Hf Hi Hn Ht.
  - apply elem_of_list_singleton in Hi as ->. simpl. rewrite Hn, Ht. split; [by left|eauto].
  - destruct Hr as (nj & Hnj & _ & _ & _ & Rl & Rr).
    destruct Hf as (Fl & Fr & n' & nl & nr & Hn' & Hnl & Hnr & _ & Sl & Sr). simplify_eq.
    simpl in Hi |- *. rewrite Hnj. apply elem_of_app in Hi as [Hi|Hi].
    + destruct (IHl _ Rl Fl Hi Hn Ht) as (Hh & nl' & Hnl' & Htl). simplify_eq.
      assert (test (tn_box nj) = true) as Htj by eauto. rewrite Htj. split; [|eauto].
      apply elem_of_app. by right.
    + destruct (IHr _ Rr Fr Hi Hn Ht) as (Hh & nr' & Hnr' & Htr). simplify_eq.
      assert (test (tn_box nj) = true) as Htj by eauto. rewrite Htj. split; [|eauto].
      apply elem_of_app. by left.
Qed.

(** Any traversal terminates, visits live leaves that pass the test, each at
    most once; and all of them when the test is monotone. *)
Lemma traverse_spec T m (test : box → bool) :
  tinv T m →
  ∃ l, traverse_tree T test = Ok l ∧ NoDup l ∧
    (∀ i, i ∈ l → ∃ lf, m !! i = Some lf ∧ test (lf_box lf) = true) ∧
    ((∀ a b, sub a b → test a = true → test b = true) →
     ∀ i lf, m !! i = Some lf → test (lf_box lf) = true → i ∈ l).
Proof using Type.
  intros [(ot & fc & (P & Hot) & Hlv) Hl Hg]. unfold traverse_tree.
  destruct ot as [t|].
  - destruct Hot as (-> & Hrep & Hfit). exists (hits (t_nodes T) test t).
    pose proof (ps_nodup _ _ _ _ P) as Hnd. apply NoDup_app in Hnd as (Hnd & _).
    simpl in Hnd, Hlv. split_and!.
    + change [Some (bid t)] with ((Some ∘ bid) <$> [t]). rewrite traverse_loop_spec.
      * simpl. by rewrite app_nil_r.
      * intros u ->%elem_of_list_singleton. eauto.
      * unfold stack_ids. simpl. rewrite app_nil_r, (pst_len _ _ _ _ P), app_length. simpl. lia.
    + by apply hits_nodup.
    + intros i Hi. pose proof (hits_leaves _ _ _ _ Hi) as Hil. apply Hlv in Hil as [lf Hlf].
      exists lf. split; [done|]. destruct (hits_test _ _ _ _ Hi) as (n & Hn & Ht).
      destruct (Hl _ _ Hlf) as (n' & Hn' & _ & _ & Hb). simplify_eq. congruence.
    + intros Hmono i lf Hi Ht. destruct (Hl _ _ Hi) as (n & Hn & _ & _ & Hb).
      eapply hits_complete; [done|exact Hrep|done|by apply Hlv; eauto|done|congruence].
  - rewrite Hot. exists []. split_and!; [|constructor|by intros i ?%elem_of_nil|].
    { cbn [traverse_loop]. by destruct (2 * length (t_nodes T)). }
    intros _ i lf Hi. assert (i ∈ oleaves None) as Hin by (apply Hlv; eauto). by apply elem_of_nil in Hin.
Qed.
End proofs.

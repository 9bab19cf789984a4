(** Property theorems: material mixing table (C40). *)
From Verif Require Import Outcome MixModel.
From Coq Require Import Sorted.

(** Specification: the last value inserted for exactly this pair and not
    removed since. *)
Definition mix_last {V} (ops : list (mixop V)) (p : nat * nat) : option V :=
  foldl (λ r o, match o with
    | MixInsert q v => if decide (q = p) then Some v else r
    | MixRemove q => if decide (q = p) then None else r
    end) None ops.
Lemma mix_last_snoc {V} (ops : list (mixop V)) o p :
  mix_last (ops ++ [o]) p = match o with
    | MixInsert q v => if decide (q = p) then Some v else mix_last ops p
    | MixRemove q => if decide (q = p) then None else mix_last ops p
    end.
Proof. unfold mix_last. by rewrite foldl_snoc. Qed.
Definition ordered (p : nat * nat) : Prop := p.1 ≤ p.2.
Definition op_pair {V} (o : mixop V) : nat * nat := match o with MixInsert p _ | MixRemove p => p end.

Definition lex (p q : nat * nat) : Prop := p.1 < q.1 ∨ p.1 = q.1 ∧ p.2 < q.2.
Lemma up_lt_lex p q : ordered p → ordered q → up_lt p q = true ↔ lex p q.
Proof.
  unfold ordered, up_lt, lex. destruct p as [a b], q as [c d]; simpl. intros.
  repeat case_decide; rewrite ?bool_decide_eq_true; split; try done; lia.
Qed.
Lemma up_lt_false p q : ordered p → ordered q → up_lt p q = false ↔ q = p ∨ lex q p.
Proof.
  intros Hp Hq. pose proof (up_lt_lex p q Hp Hq) as H. destruct p as [a b], q as [c d].
  destruct (up_lt (a, b) (c, d)).
  - split; [done|]. assert (lex (a, b) (c, d)) as Hl by (by apply H). unfold lex in *. simpl in *. intros [[= -> ->]|?]; lia.
  - split; [|done]. intros _. destruct (decide (c = a ∧ d = b)) as [[-> ->]|Hne]; [by left|right].
    assert (¬ lex (a, b) (c, d)) as Hl by (rewrite <- H; done). unfold lex in *. simpl in *. lia.
Qed.
Lemma lex_trans p q r : lex p q → lex q r → lex p r.
Proof. unfold lex. destruct p, q, r; simpl. lia. Qed.
Lemma lex_irrefl p : ¬ lex p p.
Proof. unfold lex. lia. Qed.

Section sorted.
Context {V : Type}.
Notation tree := (bst (nat * nat) V).
(** Keys of the in-order sequence are ordered pairs and strictly increasing. *)
Fixpoint keys (t : tree) : list (nat * nat) :=
  match t with BL => [] | BN l k _ r => keys l ++ k :: keys r end.
Definition good (t : tree) : Prop := Forall ordered (keys t) ∧ StronglySorted lex (keys t).
Lemma keys_inorder t : keys t = (inorder t).*1.
Proof. induction t as [|l IHl k v r IHr]; simpl; [done|]. rewrite fmap_app, IHl, IHr. done. Qed.

Lemma ssorted_app (l : list (nat * nat)) x r :
  StronglySorted lex (l ++ x :: r) ↔
  StronglySorted lex l ∧ StronglySorted lex r ∧ Forall (λ y, lex y x) l ∧ Forall (lex x) r ∧
  Forall (λ y, Forall (lex y) r) l.
Proof.
  induction l as [|y l IH]; simpl.
  - split.
    + intros [? ?]%StronglySorted_inv. split_and!; try done; constructor.
    + intros (_ & ? & _ & ? & _). by constructor.
  - split.
    + intros [H1 H2]%StronglySorted_inv. apply IH in H1 as (? & ? & ? & ? & ?).
      apply Forall_app in H2 as [? [? ?]%Forall_cons]. split_and!; try done; constructor; done.
    + intros ([H1 H2]%StronglySorted_inv & ? & [? ?]%Forall_cons & ? & [? ?]%Forall_cons).
      constructor; [by apply IH|]. apply Forall_app. split; [done|]. by constructor.
Qed.
Lemma good_node l k v r : good (BN l k v r) ↔
  good l ∧ good r ∧ ordered k ∧ Forall (λ y, lex y k) (keys l) ∧ Forall (lex k) (keys r).
Proof.
  unfold good. simpl. rewrite ssorted_app, Forall_app, Forall_cons. split.
  - intros ((? & ? & ?) & ? & ? & ? & ? & ?). done.
  - intros ((? & ?) & (? & ?) & ? & HF1 & HF2). split_and!; try done.
    eapply Forall_impl; [exact HF1|]. intros y Hy. eapply Forall_impl; [exact HF2|]. intros z Hz. exact (lex_trans _ _ _ Hy Hz).
Qed.

(** Direct search, used as the meaning of a sorted tree. *)
Definition blookup (t : tree) (p : nat * nat) : option V := list_to_map (M := gmap (nat * nat) V) (inorder t) !! p.
Lemma lookup_none (t : tree) p : p ∉ keys t → blookup t p = None.
Proof. rewrite keys_inorder. apply not_elem_of_list_to_map_1. Qed.
Lemma blookup_node l k v r p : good (BN l k v r) →
  blookup (BN l k v r) p = if decide (k = p) then Some v else if up_lt p k then blookup l p else blookup r p.
Proof.
  intros Hg. pose proof Hg as (Hl & Hr & Hk & F1 & F2)%good_node. unfold blookup. simpl.
  rewrite list_to_map_app.
  assert (Hmem : ∀ t : tree, list_to_map (M := gmap (nat * nat) V) (inorder t) !! p = blookup t p) by done.
  rewrite lookup_union, Hmem. cbn [list_to_map]. rewrite list_to_map_cons.
  destruct (decide (k = p)) as [->|Hne].
  - rewrite lookup_insert. rewrite lookup_none; [done|]. intros Hin. rewrite Forall_forall in F1. by apply (lex_irrefl p), F1.
  - rewrite lookup_insert_ne by done. rewrite Hmem.
    destruct (decide (p ∈ keys l)) as [Hin|Hnin].
    + assert (ordered p) by (destruct Hl as [Ho _]; rewrite Forall_forall in Ho; by apply Ho).
      rewrite Forall_forall in F1. rewrite (proj2 (up_lt_lex p k ltac:(done) Hk)) by (by apply F1).
      rewrite (lookup_none r p); [by destruct (blookup l p)|]. intros Hin2. rewrite Forall_forall in F2.
      apply (lex_irrefl p). eapply lex_trans; [by apply F1|by apply F2].
    + rewrite (lookup_none l) by done. rewrite left_id_L by apply _.
      destruct (up_lt p k) eqn:E; [|done]. rewrite lookup_none; [done|].
      intros Hin. rewrite Forall_forall in F2. specialize (F2 p Hin).
      assert (ordered p) by (destruct Hr as [Ho _]; rewrite Forall_forall in Ho; by apply Ho).
      apply up_lt_lex in E; [|done..]. apply (lex_irrefl p). eauto 3 using lex_trans.
Qed.

Lemma lower_bound_spec t p acc : good t → ordered p →
  match lower_bound up_lt t p acc with
  | Some (k, v) => (lower_bound up_lt t p acc = acc ∧ Forall (λ k, lex k p) (keys t)) ∨
                   (k ∈ keys t ∧ blookup t k = Some v ∧ ¬ lex k p ∧ ∀ k', k' ∈ keys t → lex k' p ∨ k' = k ∨ lex k k')
  | None => acc = None ∧ Forall (λ k, lex k p) (keys t)
  end.
Proof.
  revert acc. induction t as [|l IHl k v r IHr]; intros acc Hg Hp; simpl.
  - destruct acc as [[k v]|]; [left; by split|by split].
  - pose proof Hg as (Hl & Hr & Hk & F1 & F2)%good_node.
    destruct (up_lt k p) eqn:E.
    + apply up_lt_lex in E; [|done..]. specialize (IHr acc Hr Hp).
      assert (Hall : Forall (λ k, lex k p) (keys r) → Forall (λ k, lex k p) (keys l ++ k :: keys r)).
      { intros ?. apply Forall_app. split; [|by constructor]. eapply Forall_impl; [exact F1|]. intros y Hy. exact (lex_trans _ _ _ Hy E). }
      destruct (lower_bound up_lt r p acc) as [[k1 v1]|].
      * destruct IHr as [[? ?]|(H1 & H2 & H3 & H4)]; [left; auto|right].
        rewrite Forall_forall in F2. split_and!.
        -- apply elem_of_app. right. by right.
        -- rewrite blookup_node by done. rewrite decide_False by (intros ->; apply (lex_irrefl k1); auto).
           assert (ordered k1) by (destruct Hr as [Ho _]; rewrite Forall_forall in Ho; by apply Ho).
           rewrite (proj2 (up_lt_false k1 k ltac:(done) Hk)); [done|]. right. auto.
        -- done.
        -- intros k'. rewrite elem_of_app, elem_of_cons. intros [Hk'|[->|Hk']]; [|by left|auto].
           left. rewrite Forall_forall in F1. eapply lex_trans; [by apply F1|done].
      * destruct IHr. auto.
    + assert (Hnl : ¬ lex k p) by (rewrite <- up_lt_lex by done; congruence).
      specialize (IHl (Some (k, v)) Hl Hp).
      destruct (lower_bound up_lt l p (Some (k, v))) as [[k1 v1]|]; [|destruct IHl; done].
      right. rewrite Forall_forall in F1, F2. destruct IHl as [[[= -> ->] Hall]|(H1 & H2 & H3 & H4)].
      * split_and!.
        -- apply elem_of_app. right. by left.
        -- rewrite blookup_node by done. by rewrite decide_True.
        -- done.
        -- rewrite Forall_forall in Hall. intros k'. rewrite elem_of_app, elem_of_cons. intros [Hk'|[->|Hk']]; auto.
      * split_and!.
        -- apply elem_of_app. by left.
        -- rewrite blookup_node by done. rewrite decide_False by (intros ->; apply (lex_irrefl k1); auto).
           assert (ordered k1) by (destruct Hl as [Ho _]; rewrite Forall_forall in Ho; by apply Ho).
           rewrite (proj2 (up_lt_lex k1 k ltac:(done) Hk)) by auto. done.
        -- done.
        -- intros k'. rewrite elem_of_app, elem_of_cons. intros [Hk'|[->|Hk']]; [auto|auto|].
           right. right. eapply lex_trans; [by apply F1|by apply F2].
Qed.

Lemma bfind_spec t p : good t → ordered p → bfind up_lt t p = blookup t p.
Proof.
  intros Hg Hp. unfold bfind. pose proof (lower_bound_spec t p None Hg Hp) as H.
  destruct (lower_bound up_lt t p None) as [[k v]|]; simpl.
  - destruct H as [[? ?]|(H1 & H2 & H3 & H4)]; [done|].
    assert (ordered k) by (destruct Hg as [Ho _]; rewrite Forall_forall in Ho; by apply Ho).
    destruct (up_lt p k) eqn:E.
    + apply up_lt_lex in E; [|done..]. symmetry. apply lookup_none. intros Hin.
      destruct (H4 p Hin) as [?|[->|?]]; [by apply (lex_irrefl p)|by apply (lex_irrefl k)|].
      apply (lex_irrefl p). eauto 3 using lex_trans.
    + apply up_lt_false in E as [->|?]; done.
  - destruct H as [_ H]. symmetry. apply lookup_none. intros Hin. rewrite Forall_forall in H. by apply (lex_irrefl p), H.
Qed.

Lemma battach_keys t k v : good t → ordered k → k ∉ keys t → keys (battach up_lt t k v) ≡ₚ k :: keys t.
Proof.
  induction t as [|l IHl k' v' r IHr]; simpl; intros Hg Hk Hn; [done|].
  apply good_node in Hg as (Hl & Hr & Hk' & F1 & F2). rewrite not_elem_of_app, not_elem_of_cons in Hn. destruct Hn as (? & ? & ?).
  destruct (up_lt k k'); simpl; [rewrite IHl by done|rewrite IHr by done]; [done|]. solve_Permutation.
Qed.
Lemma battach_spec t k v : good t → ordered k → k ∉ keys t →
  good (battach up_lt t k v) ∧ ∀ p, ordered p → blookup (battach up_lt t k v) p = if decide (k = p) then Some v else blookup t p.
Proof.
  intros Hg Hk Hn. induction t as [|l IHl k' v' r IHr].
  - simpl. split.
    + apply good_node. unfold good. simpl. split_and!; try done; constructor.
    + intros p Hp. rewrite blookup_node.
      * destruct (decide (k = p)); [done|]. by destruct (up_lt p k).
      * apply good_node. unfold good. simpl. split_and!; try done; constructor.
  - pose proof Hg as (Hl & Hr & Hk' & F1 & F2)%good_node. simpl in Hn.
    rewrite not_elem_of_app, not_elem_of_cons in Hn. destruct Hn as (N1 & N2 & N3). simpl.
    destruct (up_lt k k') eqn:E.
    + destruct (IHl Hl N1) as [G1 G2]. apply up_lt_lex in E; [|done..].
      assert (HG : good (BN (battach up_lt l k v) k' v' r)).
      { apply good_node. split_and!; try done. rewrite battach_keys by done. by constructor. }
      split; [done|]. intros p Hp. rewrite !blookup_node by done. rewrite G2 by done.
      destruct (decide (k = p)) as [->|]; [|done]. rewrite decide_False by done.
      rewrite (proj2 (up_lt_lex p k' Hp Hk')) by done. done.
    + destruct (IHr Hr N3) as [G1 G2]. apply up_lt_false in E as [->|E]; [done| |done..].
      assert (HG : good (BN l k' v' (battach up_lt r k v))).
      { apply good_node. split_and!; try done. rewrite battach_keys by done. by constructor. }
      split; [done|]. intros p Hp. rewrite !blookup_node by done. rewrite G2 by done.
      destruct (decide (k = p)) as [->|]; [|done]. rewrite decide_False by done.
      rewrite (proj2 (up_lt_false p k' Hp Hk')) by auto. done.
Qed.
Lemma boverwrite_spec t k v : good t → ordered k → k ∈ keys t →
  keys (boverwrite up_lt t k v) = keys t ∧
  (good (boverwrite up_lt t k v) → ∀ p, ordered p → blookup (boverwrite up_lt t k v) p = if decide (k = p) then Some v else blookup t p).
Proof.
  intros Hg Hk Hn. induction t as [|l IHl k' v' r IHr]; [by apply elem_of_nil in Hn|].
  pose proof Hg as (Hl & Hr & Hk' & F1 & F2)%good_node. rewrite Forall_forall in F1, F2.
  simpl in Hn. rewrite elem_of_app, elem_of_cons in Hn. simpl.
  destruct (up_lt k' k) eqn:E1; [|destruct (up_lt k k') eqn:E2].
  - apply up_lt_lex in E1; [|done..].
    assert (Hin : k ∈ keys r).
    { destruct Hn as [Hn|[Hn|Hn]]; [|subst; exfalso; eapply lex_irrefl; eassumption|done]. destruct (lex_irrefl k). eapply lex_trans; [by apply F1|done]. }
    destruct (IHr Hr Hin) as [G1 G2]. simpl. rewrite G1. split; [done|]. intros HG p Hp.
    rewrite !blookup_node by done. rewrite G2; [|by apply good_node in HG as (? & ? & ?)|done].
    destruct (decide (k = p)) as [->|]; [|done]. rewrite decide_False by (intros ->; by destruct (lex_irrefl p)).
    rewrite (proj2 (up_lt_false p k' Hp Hk')) by auto. done.
  - apply up_lt_lex in E2; [|done..].
    assert (Hin : k ∈ keys l).
    { destruct Hn as [Hn|[Hn|Hn]]; [done|subst; exfalso; eapply lex_irrefl; eassumption|]. destruct (lex_irrefl k). eapply lex_trans; [done|by apply F2]. }
    destruct (IHl Hl Hin) as [G1 G2]. simpl. rewrite G1. split; [done|]. intros HG p Hp.
    rewrite !blookup_node by done. rewrite G2; [|by apply good_node in HG as (? & ? & ?)|done].
    destruct (decide (k = p)) as [->|]; [|done]. rewrite decide_False by (intros ->; by destruct (lex_irrefl p)).
    rewrite (proj2 (up_lt_lex p k' Hp Hk')) by done. done.
  - apply up_lt_false in E1; [|done..]. apply up_lt_false in E2; [|done..].
    assert (k = k') as ->.
    { destruct E1 as [->|E1]; [done|]. destruct E2 as [->|E2]; [done|]. destruct (lex_irrefl k). eauto 3 using lex_trans. }
    simpl. split; [done|]. intros HG p Hp. rewrite !blookup_node by done. by destruct (decide (k' = p)).
Qed.
Lemma bjoin_inorder (l r : tree) : inorder (bjoin l r) = inorder l ++ inorder r.
Proof. induction l as [|a IHa k v b IHb]; simpl; [done|]. by rewrite IHb, <- (assoc_L (++)). Qed.
Lemma berase_inorder t k : good t → ordered k → inorder (berase up_lt t k) = filter (λ e, e.1 ≠ k) (inorder t).
Proof.
  assert (Hall : ∀ (t : tree), k ∉ keys t → filter (λ e : nat * nat * V, e.1 ≠ k) (inorder t) = inorder t).
  { intros u. rewrite keys_inorder. induction (inorder u) as [|e es IH]; [done|]. cbn [fmap list_fmap].
    rewrite not_elem_of_cons. intros [? ?]. rewrite filter_cons_True by congruence. f_equal. by apply IH. }
  intros Hg Hk. induction t as [|l IHl k' v' r IHr]; [done|].
  pose proof Hg as (Hl & Hr & Hk' & F1 & F2)%good_node. rewrite Forall_forall in F1, F2. simpl.
  rewrite filter_app, filter_cons.
  destruct (up_lt k' k) eqn:E1; [|destruct (up_lt k k') eqn:E2].
  - apply up_lt_lex in E1; [|done..]. simpl. rewrite IHr by done.
    rewrite (Hall l) by (intros Hn; destruct (lex_irrefl k); eapply lex_trans; [by apply F1|done]).
    rewrite decide_True; [done|]. intros ->. by destruct (lex_irrefl k).
  - apply up_lt_lex in E2; [|done..]. simpl. rewrite IHl by done.
    rewrite (Hall r) by (intros Hn; destruct (lex_irrefl k); eapply lex_trans; [done|by apply F2]).
    rewrite decide_True; [done|]. intros ->. by destruct (lex_irrefl k).
  - apply up_lt_false in E1; [|done..]. apply up_lt_false in E2; [|done..].
    assert (k = k') as ->.
    { destruct E1 as [->|E1]; [done|]. destruct E2 as [->|E2]; [done|]. destruct (lex_irrefl k). eauto 3 using lex_trans. }
    rewrite bjoin_inorder. rewrite decide_False by (simpl; tauto).
    rewrite (Hall l) by (intros Hn; destruct (lex_irrefl k'); by apply F1).
    rewrite (Hall r) by (intros Hn; destruct (lex_irrefl k'); by apply F2). done.
Qed.
Lemma good_ext (t t' : tree) : inorder t = inorder t' → good t → good t'.
Proof. intros H. unfold good. by rewrite !keys_inorder, H. Qed.

Lemma filter_sorted (P : nat * nat → Prop) `{∀ x, Decision (P x)} l : StronglySorted lex l → StronglySorted lex (filter P l).
Proof.
  induction 1 as [|x l Hs IH Hf]; [constructor|]. rewrite filter_cons. case_decide; [|done].
  constructor; [done|]. rewrite Forall_forall in Hf |- *. intros y [_ Hy]%elem_of_list_filter. by apply Hf.
Qed.
Lemma filter_fst (l : list (nat * nat * V)) k : (filter (λ e, e.1 ≠ k) l).*1 = filter (λ x, x ≠ k) l.*1.
Proof.
  induction l as [|e l IH]; [done|]. cbn [fmap list_fmap]. rewrite !filter_cons.
  destruct (decide (e.1 ≠ k)); simpl; [f_equal|]; exact IH.
Qed.

Lemma lookup_filter_list (l : list (nat * nat * V)) k p :
  (list_to_map (filter (λ e, e.1 ≠ k) l) : gmap (nat * nat) V) !! p =
  if decide (k = p) then None else (list_to_map l : gmap (nat * nat) V) !! p.
Proof.
  induction l as [|[k1 v1] l IHl]; [by case_decide|].
  destruct (decide (k1 = k)) as [->|Hn].
  - rewrite filter_cons_False by (simpl; tauto). etrans; [exact IHl|].
    destruct (decide (k = p)); [done|]. rewrite list_to_map_cons. by rewrite lookup_insert_ne.
  - rewrite filter_cons_True by done. rewrite !list_to_map_cons. destruct (decide (k1 = p)) as [->|].
    + rewrite !lookup_insert. by rewrite decide_False by congruence.
    + rewrite !lookup_insert_ne by done. exact IHl.
Qed.
Lemma mix_reach_good ops (t : tree) :
  mix_reach ops t → Forall (λ o, ordered (op_pair o)) ops →
  good t ∧ ∀ p, ordered p → blookup t p = mix_last ops p.
Proof.
  induction 1 as [|ops t o Hr IH|ops t t' Hr IH Hin]; intros Hf.
  - split; [unfold good; simpl; split; constructor|]. done.
  - apply Forall_app in Hf as [Hf [Ho _]%Forall_cons]. destruct (IH Hf) as [Hg Hl].
    setoid_rewrite mix_last_snoc.
    destruct o as [k v|k]; simpl in *.
    + unfold binsert. rewrite bfind_spec by done. destruct (blookup t k) as [v0|] eqn:E.
      * assert (k ∈ keys t) as Hk by (destruct (decide (k ∈ keys t)) as [|Hn]; [done|]; apply lookup_none in Hn; congruence).
        destruct (boverwrite_spec t k v Hg Ho Hk) as [G1 G2].
        assert (good (boverwrite up_lt t k v)) as G3 by (unfold good; by rewrite G1).
        split; [done|]. intros p Hp. rewrite G2, Hl by done. done.
      * assert (k ∉ keys t) as Hk.
        { rewrite keys_inorder. intros Hk. apply elem_of_list_fmap in Hk as ([k1 v1] & -> & Hk).
          unfold blookup in E. apply not_elem_of_list_to_map_2 in E. apply E. apply elem_of_list_fmap. by eexists. }
        destruct (battach_spec t k v Hg Ho Hk) as [G1 G2]. split; [done|]. intros p Hp. rewrite G2, Hl by done. done.
    + assert (HE := berase_inorder t k Hg Ho). split.
      * unfold good. rewrite keys_inorder, HE, filter_fst, <- keys_inorder. destruct Hg as [H1 H2]. split.
        -- rewrite Forall_forall in H1 |- *. intros y [_ Hy]%elem_of_list_filter. by apply H1.
        -- by apply filter_sorted.
      * intros p Hp. rewrite <- Hl by done. unfold blookup. rewrite HE.
        apply lookup_filter_list.
  - destruct (IH Hf) as [Hg Hl]. split; [by eapply good_ext|]. intros p Hp. unfold blookup. rewrite <- Hin. by apply Hl.
Qed.
End sorted.

(** If every pair given to the table is ordered (smaller id first), then after
    every history of insertions and removals, with any rebalancing of the
    underlying tree, a lookup returns the last value inserted for the pair and
    not removed since. *)
Theorem C40_ordered_pairs {V} (ops : list (mixop V)) t p :
  mix_reach ops t → Forall (λ o, ordered (op_pair o)) ops → ordered p →
  try_get t p = mix_last ops p.
Proof. intros Hr Hf Hp. destruct (mix_reach_good ops t Hr Hf) as [Hg Hl]. unfold try_get. rewrite bfind_spec by done. auto. Qed.

(** The comparison is not a strict weak ordering: (1,2) and (2,1) are
    equivalent, yet (1,3) separates them. *)
Theorem C40_comparator_refuted :
  ∃ p q r, up_lt p q = false ∧ up_lt q p = false ∧ up_eq p q = true ∧ up_lt p r = true ∧ up_lt r q = true.
Proof. exists (1, 2), (2, 1), (1, 3). by vm_compute. Qed.

(** Consequence: with pairs in mixed order the table is not symmetric.  Two
    insertions need no rebalancing. *)
Theorem C40_symmetric_lookup_refuted :
  ∃ (ops : list (mixop nat)) t a b v, mix_reach ops t ∧
    try_get t (a, b) = Some v ∧ try_get t (b, a) = None.
Proof.
  exists ([] ++ [MixInsert (1, 3) 7] ++ [MixInsert (2, 1) 8]),
    (mix_step (mix_step BL (MixInsert (1, 3) 7)) (MixInsert (2, 1) 8)), 2, 1, 8.
  split.
  - rewrite (assoc_L (++)). apply mix_op. apply mix_op. constructor.
  - split; vm_compute; reflexivity.
Qed.
Example C40_case :
  mix_last [MixInsert (1, 3) 7; MixInsert (1, 2) 8; MixInsert (2, 2) 9; MixInsert (1, 3) 10; MixRemove (2, 2)] (1, 3) = Some 10 ∧
  Forall (λ o, ordered (op_pair o)) [MixInsert (1, 3) 7; MixInsert (1, 2) 8; MixInsert (2, 2) 9; MixInsert (1, 3) 10; MixRemove (2, 2)].
Proof. split; [reflexivity|]. repeat constructor. Qed.

Print Assumptions C40_ordered_pairs.
Print Assumptions C40_comparator_refuted.
Print Assumptions C40_symmetric_lookup_refuted.

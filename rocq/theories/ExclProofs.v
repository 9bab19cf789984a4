From Verif Require Import Outcome MapProofs ExclModel ExclSpec.

Definition arr_of (l : list nat) : exarr := (Some <$> l) ++ replicate (max_exclusions - length l) None.

Lemma num_arr l : num_entities (arr_of l) = length l.
Proof.
  unfold arr_of. generalize (max_exclusions - length l). intros n.
  induction l as [|x l IH]; simpl; [by destruct n|]. f_equal. apply IH.
Qed.
Lemma mem_arr l b : ex_mem (arr_of l) b (length l) = bool_decide (b ∈ l).
Proof.
  unfold arr_of. generalize (max_exclusions - length l). intros n.
  induction l as [|x l IH]; [by destruct n|].
  cbn [length fmap list_fmap app ex_mem]. change (list_fmap _ _ Some l) with (Some <$> l). rewrite IH.
  destruct (decide (x = b)) as [->|Hx].
  - rewrite (bool_decide_true (Some b = Some b)) by done. rewrite (bool_decide_true (b ∈ b :: l)) by (by left). done.
  - rewrite (bool_decide_false (Some x = Some b)) by congruence. simpl.
    apply bool_decide_ext. rewrite elem_of_cons. intuition congruence.
Qed.
Lemma arr_snoc l b : length l < max_exclusions → <[length l := Some b]> (arr_of l) = arr_of (l ++ [b]).
Proof.
  intros H. unfold arr_of. rewrite fmap_app, app_length, <- (assoc_L (++)).
  rewrite insert_app_r_alt by (rewrite fmap_length; lia). f_equal. rewrite fmap_length, Nat.sub_diag.
  replace (max_exclusions - length l) with (S (max_exclusions - (length l + length [b]))) by (simpl; lia). done.
Qed.
Lemma arr_new : ex_new = arr_of [].
Proof. done. Qed.
Local Opaque max_exclusions.

Lemma find_last_spec l n b : NoDup l → ∀ k, k ≤ length l →
  match find_last ((Some <$> l) ++ replicate n None) b k with
  | Some j => j < k ∧ l !! j = Some b
  | None => ∀ j, j < k → l !! j ≠ Some b
  end.
Proof.
  intros Hnd. induction k as [|k IH]; intros Hk; simpl; [lia|].
  rewrite lookup_app_l by (rewrite fmap_length; lia). rewrite list_lookup_fmap.
  destruct (l !! k) as [x|] eqn:Ek; [|apply lookup_ge_None in Ek; lia]. simpl.
  destruct (decide (Some (Some x) = Some (Some b))) as [Heq|Hne].
  - simplify_eq. split; [lia|done].
  - specialize (IH ltac:(lia)). destruct (find_last _ b k) as [j|].
    + destruct IH. split; [lia|done].
    + intros j Hj. destruct (decide (j = k)) as [->|]; [congruence|]. apply IH. lia.
Qed.

(** Effect on the list of members. *)
Lemma ex_remove_spec l b : NoDup l → length l ≤ max_exclusions →
  ∃ l', ex_remove (arr_of l) b = arr_of l' ∧ NoDup l' ∧ length l' ≤ max_exclusions ∧
        ∀ x, x ∈ l' ↔ x ∈ l ∧ x ≠ b.
Proof.
  intros Hnd Hlen. unfold ex_remove. rewrite num_arr.
  pose proof (find_last_spec l (max_exclusions - length l) b Hnd (length l) ltac:(lia)) as Hf.
  fold (arr_of l) in Hf. destruct (find_last (arr_of l) b (length l)) as [k|].
  - destruct Hf as [Hk Hb]. apply elem_of_list_split_length in Hb as (l1 & l2 & -> & ->).
    apply NoDup_app in Hnd as (Hn1 & Hd & Hn2). apply NoDup_cons in Hn2 as [Hb2 Hn2].
    rewrite app_length in *. simpl in *.
    destruct l2 as [|z l3 _] using rev_ind.
    + exists l1. simpl in *. split_and!; [|done|lia|].
      * apply list_eq. intros i. unfold arr_of.
        rewrite fmap_app, app_length. simpl. rewrite Nat.add_1_r, Nat.sub_succ, Nat.sub_0_r.
        destruct (decide (i = length l1)) as [->|Hi].
        { rewrite list_lookup_insert.
          - symmetry. rewrite lookup_app_r by (rewrite fmap_length; lia). rewrite fmap_length, Nat.sub_diag.
            apply lookup_replicate. split; [done|]. lia.
          - rewrite insert_length, !app_length, fmap_length, replicate_length. simpl. lia. }
        rewrite !list_lookup_insert_ne by done.
        destruct (decide (i < length l1)).
        { rewrite <- (assoc_L (++)). rewrite !lookup_app_l by (rewrite fmap_length; lia). done. }
        rewrite !lookup_app_r by (rewrite ?app_length, ?fmap_length; simpl; lia).
        rewrite !app_length, !fmap_length. simpl. apply option_eq. intros o.
        rewrite !lookup_replicate. split; intros [-> ?]; (split; [done|lia]).
      * intros x. rewrite elem_of_app, elem_of_list_singleton. split; [|naive_solver].
        intros Hx. split; [by left|]. intros ->. apply (Hd b Hx). by left.
    + rewrite !app_length in *. simpl in *. rewrite NoDup_app in Hn2. destruct Hn2 as (Hn3 & Hd3 & _).
      assert (Hzb : z ≠ b) by set_solver.
      assert (Hz1 : z ∉ l1) by (intros Hz; apply (Hd z Hz); set_solver).
      exists (l1 ++ z :: l3). split_and!.
      * set (m := length l1 + S (length l3 + 1) - 1).
        assert (Hm : m = length l1 + S (length l3)) by (unfold m; lia).
        assert (Hlk : arr_of (l1 ++ b :: l3 ++ [z]) !! m = Some (Some z)).
        { unfold arr_of. rewrite lookup_app_l by (rewrite fmap_length, !app_length; simpl; rewrite app_length; simpl; lia).
          rewrite list_lookup_fmap, lookup_app_r by lia. rewrite Hm, Nat.add_comm, Nat.add_sub. simpl.
          rewrite lookup_app_r by lia. by rewrite Nat.sub_diag. }
        rewrite Hlk. simpl. apply list_eq. intros i.
        assert (HL : length (arr_of (l1 ++ b :: l3 ++ [z])) = max_exclusions).
        { unfold arr_of. rewrite app_length, fmap_length, replicate_length. rewrite !app_length. simpl. rewrite app_length. simpl. lia. }
        destruct (decide (i = m)) as [->|Him].
        { rewrite list_lookup_insert by (rewrite insert_length, HL; lia). unfold arr_of. symmetry.
          rewrite lookup_app_r by (rewrite fmap_length, app_length; simpl; lia).
          rewrite fmap_length, app_length. simpl. apply lookup_replicate. split; [done|]. lia. }
        rewrite list_lookup_insert_ne by done.
        destruct (decide (i = length l1)) as [->|Hi1].
        { rewrite list_lookup_insert by (rewrite HL; lia). unfold arr_of. symmetry.
          rewrite lookup_app_l by (rewrite fmap_length, app_length; simpl; lia).
          rewrite list_lookup_fmap, lookup_app_r by lia. by rewrite Nat.sub_diag. }
        rewrite list_lookup_insert_ne by done. unfold arr_of.
        destruct (decide (i < length l1)).
        { rewrite !fmap_app, <- !(assoc_L (++)), !lookup_app_l by (rewrite fmap_length; lia). done. }
        destruct (decide (i < m)).
        { rewrite !lookup_app_l by (rewrite fmap_length, !app_length; simpl; rewrite ?app_length; simpl; lia).
          rewrite !list_lookup_fmap. f_equal. rewrite !lookup_app_r by lia.
          destruct (i - length l1) as [|j] eqn:Ej; [lia|]. simpl. rewrite lookup_app_l by lia. done. }
        rewrite !lookup_app_r by (rewrite fmap_length, !app_length; simpl; rewrite ?app_length; simpl; lia).
        rewrite !fmap_length, !app_length. simpl. rewrite app_length. simpl. apply option_eq. intros o.
        rewrite !lookup_replicate. split; intros [-> ?]; (split; [done|lia]).
      * apply NoDup_app. split_and!; [done| |].
        { intros x Hx. apply not_elem_of_cons. split; [by intros ->|]. intros Hx3. apply (Hd x Hx). set_solver. }
        apply NoDup_cons. split; [|done]. intros Hz. apply (Hd3 z Hz). by left.
      * rewrite app_length. simpl. lia.
      * intros x. rewrite !elem_of_app, !elem_of_cons, !elem_of_app, elem_of_list_singleton.
        split; [|naive_solver]. intros [Hx|[->|Hx]].
        { split; [by left|]. intros ->. apply (Hd b Hx). by left. }
        { tauto. }
        { split; [tauto|]. intros ->. apply Hb2. apply elem_of_app. by left. }
  - exists l. split_and!; try done. intros x. split; [|tauto]. intros Hx. split; [done|]. intros ->.
    apply elem_of_list_lookup in Hx as [j Hj]. apply (Hf j); [|done]. by apply lookup_lt_Some in Hj.
Qed.

(** ** Simulation *)
Record xrel (bodies : gset nat) (s : xstate) (r : exreg) : Prop := {
  xr_body : x_body r = bodies;
  xr_dom : ∀ a, a ∈ xs_lists s ↔ is_Some (x_ex r !! a);
  xr_arr : ∀ a arr, x_ex r !! a = Some arr → ∃ l, arr = arr_of l ∧ NoDup l ∧
             length l ≤ max_exclusions ∧ ∀ b, b ∈ l ↔ (a, b) ∈ xs_pairs s;
  xr_in : ∀ a b, (a, b) ∈ xs_pairs s → a ∈ xs_lists s;
  xr_sym : ∀ a b, (a, b) ∈ xs_pairs s → (b, a) ∈ xs_pairs s;
  xr_irr : ∀ a, (a, a) ∉ xs_pairs s }.

Lemma degree_len s l a : NoDup l → (∀ b, b ∈ l ↔ (a, b) ∈ xs_pairs s) → degree s a = length l.
Proof.
  intros Hnd Hl. unfold degree.
  replace (filter (λ p, p.1 = a) (xs_pairs s)) with (list_to_set (pair a <$> l) : gset (nat * nat)).
  - rewrite size_list_to_set; [by rewrite fmap_length|]. apply NoDup_fmap; [|done]. by intros ? ? [= ->].
  - apply set_eq. intros [x y]. rewrite elem_of_list_to_set, elem_of_filter, elem_of_list_fmap. simpl. split.
    + intros (b & [= -> ->] & Hb). by rewrite <- Hl.
    + intros [-> ?]. exists y. by rewrite Hl.
Qed.

(** One direction of exclude_collision. *)
Lemma exclude_one_spec bodies r a b l :
  x_body r = bodies → a ∈ bodies →
  match x_ex r !! a with Some arr => arr = arr_of l | None => l = [] end →
  NoDup l → length l ≤ max_exclusions → (b ∈ l ∨ length l < max_exclusions) →
  ∃ l', exclude_one_way r a b = Ok (x_set r a (arr_of l')) ∧ NoDup l' ∧ length l' ≤ max_exclusions ∧
        (∀ x, x ∈ l' ↔ x ∈ l ∨ x = b).
Proof.
  intros <- Ha Hl Hnd Hlen Hcap. unfold exclude_one_way. rewrite (bool_decide_true (a ∈ x_body r)) by done. cbn [assert_ mbind res_bind].
  assert (default ex_new (x_ex r !! a) = arr_of l) as ->.
  { destruct (x_ex r !! a); simpl; [done|]. by rewrite Hl. }
  rewrite num_arr, mem_arr. destruct (decide (b ∈ l)) as [Hb|Hb].
  - rewrite (bool_decide_true (b ∈ l)) by done. exists l. split_and!; try done. intros x. split; [tauto|]. intros [?| ->]; done.
  - rewrite (bool_decide_false (b ∈ l)) by done. rewrite bool_decide_true by tauto. cbn [assert_ mbind res_bind].
    exists (l ++ [b]). rewrite arr_snoc by tauto. split_and!.
    + unfold x_set. simpl. by rewrite insert_insert.
    + apply NoDup_app. split_and!; [done| |apply NoDup_singleton]. intros x Hx ->%elem_of_list_singleton. done.
    + rewrite app_length. simpl. destruct Hcap; [done|]. lia.
    + intros x. by rewrite elem_of_app, elem_of_list_singleton.
Qed.

Definition xstep (r : exreg) (o : xop) : res exreg :=
  match o with
  | XExclude a b => exclude_collision r a b
  | XRemove a b => remove_exclusion r a b
  | XClear a => clear_exclusion r a
  end.

Lemma remove_one_spec r a b l :
  x_ex r !! a = Some (arr_of l) → NoDup l → length l ≤ max_exclusions →
  ∃ l', remove_one_way r a b = Ok (x_set r a (arr_of l')) ∧ NoDup l' ∧ length l' ≤ max_exclusions ∧
        ∀ x, x ∈ l' ↔ x ∈ l ∧ x ≠ b.
Proof.
  intros Ha Hnd Hlen. unfold remove_one_way. rewrite Ha. simpl.
  destruct (ex_remove_spec l b Hnd Hlen) as (l' & -> & ?). eauto.
Qed.

(** The clear loop, having treated the first [i] entries of [l]. *)
Lemma clear_loop_spec a l : ∀ n i r,
  n + i = length l → NoDup l → length l ≤ max_exclusions → a ∉ l → x_ex r !! a = Some (arr_of l) →
  (∀ c, c ∈ l → ∃ k, x_ex r !! c = Some (arr_of k) ∧ NoDup k ∧ length k ≤ max_exclusions) →
  ∃ r', clear_loop r a i n = Ok r' ∧ x_body r' = x_body r ∧ x_filter r' = x_filter r ∧
    x_ex r' !! a = x_ex r !! a ∧
    (∀ c, c ∉ drop i l → x_ex r' !! c = x_ex r !! c) ∧
    (∀ c k, c ∈ drop i l → x_ex r !! c = Some (arr_of k) → NoDup k → length k ≤ max_exclusions →
       ∃ k', x_ex r' !! c = Some (arr_of k') ∧ NoDup k' ∧ length k' ≤ max_exclusions ∧ ∀ x, x ∈ k' ↔ x ∈ k ∧ x ≠ a).
Proof.
  induction n as [|n IH]; intros i r Hi Hnd Hlen Hal Ha Hk.
  - simpl. exists r. split_and!; try done. intros c k Hc. rewrite drop_ge in Hc by lia. by apply elem_of_nil in Hc.
  - destruct (lookup_lt_is_Some_2 l i) as [o Ho]; [lia|]. cbn [clear_loop].
    rewrite Ha. cbn [opt_res mbind res_bind].
    assert (arr_of l !! i = Some (Some o)) as ->.
    { unfold arr_of. rewrite lookup_app_l by (rewrite fmap_length; lia). by rewrite list_lookup_fmap, Ho. }
    cbn [opt_res mbind res_bind].
    assert (Hol : o ∈ l) by (by eapply elem_of_list_lookup_2).
    assert (Hoa : o ≠ a) by (by intros ->).
    destruct (Hk o Hol) as (ko & Hko & Hndk & Hlk).
    destruct (remove_one_spec r o a ko Hko Hndk Hlk) as (k' & -> & Hnd' & Hl' & Hm'). cbn [mbind res_bind].
    assert (Hdrop : drop i l = o :: drop (S i) l) by (by apply drop_S).
    assert (Hod : o ∉ drop (S i) l).
    { rewrite <- (take_drop i l), Hdrop in Hnd. apply NoDup_app in Hnd as (_ & _ & Hnd).
      by apply NoDup_cons in Hnd as [? _]. }
    destruct (IH (S i) (x_set r o (arr_of k'))) as (r' & -> & Hb' & Hf' & Ha' & Hn' & Hy').
    + lia.
    + done.
    + done.
    + done.
    + simpl. by rewrite lookup_insert_ne.
    + intros c Hc. simpl. destruct (decide (c = o)) as [->|]; [rewrite lookup_insert; eauto|].
      rewrite lookup_insert_ne by done. by apply Hk.
    + exists r'. simpl in *. split_and!; try done.
      * rewrite Ha'. by rewrite lookup_insert_ne.
      * intros c Hc. rewrite Hdrop, not_elem_of_cons in Hc. destruct Hc as [Hco Hcd].
        rewrite Hn' by done. by rewrite lookup_insert_ne.
      * intros c k Hc Hck Hndk2 Hlk2. rewrite Hdrop in Hc. apply elem_of_cons in Hc as [->|Hc].
        { rewrite Hn' by done. rewrite lookup_insert. exists k'. split_and!; try done.
          intros x. rewrite Hm'. assert (Hkk : arr_of k = arr_of ko) by congruence.
          assert (∀ x, x ∈ k ↔ x ∈ ko) as ->; [|done].
          intros y. assert (num_entities (arr_of k) = num_entities (arr_of ko)) as Hn by congruence.
          rewrite !num_arr in Hn. pose proof (mem_arr k y) as M1. pose proof (mem_arr ko y) as M2.
          rewrite Hkk, Hn in M1. rewrite M1 in M2.
          rewrite <- (bool_decide_eq_true (y ∈ k)), <- (bool_decide_eq_true (y ∈ ko)). by rewrite M2. }
        assert (c ≠ o) by (by intros ->). apply (Hy' c k); try done. by rewrite lookup_insert_ne.
Qed.

Lemma xstep_sim bodies s r o s' :
  xrel bodies s r → xspec bodies s o = Some s' → ∃ r', xstep r o = Ok r' ∧ xrel bodies s' r'.
Proof.
  intros [Hb Hdom Harr Hin Hsym Hirr]. destruct o as [a b|a b|a]; simpl.
  - case_decide as Hd; [|done]. destruct Hd as (Hab & Ha & Hbb & Hcap). intros [= <-].
    assert (HL : ∀ c, ∃ l, match x_ex r !! c with Some arr => arr = arr_of l | None => l = [] end ∧
       NoDup l ∧ length l ≤ max_exclusions ∧ ∀ x, x ∈ l ↔ (c, x) ∈ xs_pairs s).
    { intros c. destruct (x_ex r !! c) as [arr|] eqn:E.
      - destruct (Harr _ _ E) as (l & ? & ? & ? & ?). eauto.
      - exists []. split_and!; [done|constructor|simpl; lia|]. intros x. split; [by intros ?%elem_of_nil|].
        intros Hx%Hin%Hdom. rewrite E in Hx. by destruct Hx. }
    destruct (HL a) as (la & Hla & Hnda & Hlena & Hma). destruct (HL b) as (lb & Hlb & Hndb & Hlenb & Hmb).
    assert (Hca : b ∈ la ∨ length la < max_exclusions).
    { destruct Hcap as [Hc|[Hc _]]; [left; by apply Hma|right]. by rewrite (degree_len s la a) in Hc. }
    assert (Hcb : a ∈ lb ∨ length lb < max_exclusions).
    { destruct Hcap as [Hc|[_ Hc]]; [left; apply Hmb; by apply Hsym|right]. by rewrite (degree_len s lb b) in Hc. }
    unfold exclude_collision.
    destruct (exclude_one_spec bodies r a b la Hb Ha Hla Hnda Hlena Hca) as (la' & -> & Hnda' & Hlena' & Hma').
    cbn [mbind res_bind].
    destruct (exclude_one_spec bodies (x_set r a (arr_of la')) b a lb) as (lb' & -> & Hndb' & Hlenb' & Hmb'); try done.
    { simpl. by rewrite lookup_insert_ne. }
    eexists. split; [done|]. split; simpl.
    + done.
    + intros c. destruct (decide (c = b)) as [->|]; [rewrite lookup_insert; split; [eauto|set_solver]|].
      rewrite lookup_insert_ne by done.
      destruct (decide (c = a)) as [->|]; [rewrite lookup_insert; split; [eauto|set_solver]|].
      rewrite lookup_insert_ne by done. rewrite <- Hdom. set_solver.
    + intros c arr. destruct (decide (c = b)) as [->|].
      { rewrite lookup_insert. intros [= <-]. exists lb'. split_and!; try done. intros x. rewrite Hmb', Hmb. set_solver. }
      rewrite lookup_insert_ne by done. destruct (decide (c = a)) as [->|].
      { rewrite lookup_insert. intros [= <-]. exists la'. split_and!; try done. intros x. rewrite Hma', Hma. set_solver. }
      rewrite lookup_insert_ne by done. intros E. destruct (Harr _ _ E) as (l & -> & ? & ? & Hm). exists l.
      split_and!; try done. intros x. rewrite Hm. set_solver.
    + intros c d. rewrite elem_of_union. intros [Hc|Hc]; [apply Hin in Hc; set_solver|set_solver].
    + intros c d. rewrite !elem_of_union. intros [Hc|Hc]; [left; by apply Hsym|right; set_solver].
    + intros c. rewrite elem_of_union. intros [Hc|Hc]; [by apply (Hirr c)|set_solver].
  - case_decide as Hd; [|done]. destruct Hd as [Ha Hbb]. intros [= <-].
    apply Hdom in Ha as [arra Ea]. apply Hdom in Hbb as [arrb Eb].
    destruct (Harr _ _ Ea) as (la & -> & Hnda & Hlena & Hma).
    unfold remove_exclusion. destruct (remove_one_spec r a b la Ea Hnda Hlena) as (la' & -> & Hnda' & Hlena' & Hma').
    cbn [mbind res_bind].
    assert (∃ lb, x_ex (x_set r a (arr_of la')) !! b = Some (arr_of lb) ∧ NoDup lb ∧ length lb ≤ max_exclusions ∧
      ∀ x, x ∈ lb ↔ (b, x) ∈ xs_pairs s ∧ (a = b → x ≠ b)) as (lb & Elb & Hndb & Hlenb & Hmb).
    { simpl. destruct (decide (a = b)) as [->|Hne].
      - rewrite lookup_insert. exists la'. split_and!; try done. intros x. rewrite Hma', Hma. tauto.
      - rewrite lookup_insert_ne by done. destruct (Harr _ _ Eb) as (lb & -> & ? & ? & Hm). exists lb.
        split_and!; try done. intros x. rewrite Hm. tauto. }
    destruct (remove_one_spec (x_set r a (arr_of la')) b a lb Elb Hndb Hlenb) as (lb' & -> & Hndb' & Hlenb' & Hmb').
    eexists. split; [done|]. split; simpl.
    + done.
    + intros c. destruct (decide (c = b)) as [->|].
      { rewrite lookup_insert, Hdom, Eb. split; eauto. }
      rewrite lookup_insert_ne by done.
      destruct (decide (c = a)) as [->|]; [rewrite lookup_insert, Hdom, Ea; split; eauto|].
      rewrite lookup_insert_ne by done. apply Hdom.
    + intros c arr. destruct (decide (c = b)) as [->|].
      { rewrite lookup_insert. intros [= <-]. exists lb'. split_and!; try done. intros x.
        rewrite Hmb', Hmb, elem_of_difference, elem_of_union, !elem_of_singleton.
        destruct (decide (a = b)) as [->|Hne]; [|intuition congruence].
        destruct (decide (x = b)); intuition congruence. }
      rewrite lookup_insert_ne by done. destruct (decide (c = a)) as [->|].
      { rewrite lookup_insert. intros [= <-]. exists la'. split_and!; try done. intros x.
        rewrite Hma', Hma, elem_of_difference, elem_of_union, !elem_of_singleton. intuition congruence. }
      rewrite lookup_insert_ne by done. intros E. destruct (Harr _ _ E) as (l & -> & ? & ? & Hm). exists l.
      split_and!; try done. intros x. rewrite Hm, elem_of_difference, elem_of_union, !elem_of_singleton. intuition congruence.
    + intros c d. rewrite elem_of_difference. intros [Hc _]. by eapply Hin.
    + intros c d. rewrite !elem_of_difference, !elem_of_union, !elem_of_singleton. intros [Hc Hn]. split; [by apply Hsym|].
      intros [[= -> ->]|[= -> ->]]; apply Hn; auto.
    + intros c. rewrite elem_of_difference. intros [Hc _]. by apply (Hirr c).
  - case_decide as Hd; [|done]. intros [= <-]. pose proof Hd as [arr Ea]%Hdom.
    destruct (Harr _ _ Ea) as (l & -> & Hnd & Hlen & Hm). unfold clear_exclusion. rewrite Ea.
    cbn [opt_res mbind res_bind]. rewrite num_arr.
    assert (Hal : a ∉ l) by (intros H; apply Hm in H; by apply (Hirr a)).
    assert (Hk : ∀ c, c ∈ l → ∃ k, x_ex r !! c = Some (arr_of k) ∧ NoDup k ∧ length k ≤ max_exclusions).
    { intros c Hc. apply Hm, Hsym, Hin, Hdom in Hc as [arr E]. destruct (Harr _ _ E) as (k & -> & ? & ? & ?). eauto. }
    destruct (clear_loop_spec a l (length l) 0 r) as (r' & -> & Hb' & _ & Ha' & Hn' & Hy'); try done; try lia.
    rewrite drop_0 in *. eexists. split; [done|]. split; simpl.
    + congruence.
    + intros c. rewrite elem_of_difference, elem_of_singleton. destruct (decide (c = a)) as [->|].
      { rewrite lookup_delete. split; [tauto|]. intros [? ?]. done. }
      rewrite lookup_delete_ne by done. rewrite Hdom. destruct (decide (c ∈ l)) as [Hc|Hc].
      * destruct (Hk c Hc) as (k & Ek & ? & ?). destruct (Hy' c k) as (k' & -> & _); [done..|]. rewrite Ek. split; [eauto|]. intros _. split; eauto.
      * rewrite Hn' by done. tauto.
    + intros c arr. destruct (decide (c = a)) as [->|]; [by rewrite lookup_delete|].
      rewrite lookup_delete_ne by done. destruct (decide (c ∈ l)) as [Hc|Hc].
      * pose proof Hc as [arr0 E0]%Hm%Hsym%Hin%Hdom. destruct (Harr _ _ E0) as (k & -> & Hndk & Hlk & Hmk).
        destruct (Hy' c k) as (k' & -> & ? & ? & Hk'); try done. intros [= <-]. exists k'. split_and!; try done.
        intros x. rewrite Hk', Hmk, elem_of_filter. simpl. tauto.
      * rewrite Hn' by done. intros E. destruct (Harr _ _ E) as (k & -> & ? & ? & Hmk). exists k. split_and!; try done.
        intros x. rewrite Hmk, elem_of_filter. simpl. split; [|tauto]. intros Hx. split_and!; try done.
        intros ->. apply Hc. apply Hm. by apply Hsym.
    + intros c d. rewrite elem_of_filter. simpl. intros [[? ?] Hc]. apply Hin in Hc. set_solver.
    + intros c d. rewrite !elem_of_filter. simpl. intros [[? ?] Hc]. split; [done|]. by apply Hsym.
    + intros c. rewrite elem_of_filter. intros [_ Hc]. by apply (Hirr c).
Qed.

Lemma excl_main bodies filt ops s :
  orun (xspec bodies) (XS ∅ ∅) ops = Some s →
  ∃ r, rrun xstep (ExReg bodies ∅ filt) ops = Ok r ∧ xrel bodies s r.
Proof.
  intros H. eapply (rrun_refines (xspec bodies) xstep (xrel bodies)); [apply xstep_sim| |exact H].
  split; simpl; try done.
  - intros a. rewrite lookup_empty. split; [set_solver|]. by intros [].
Qed.

Lemma should_exclude_spec bodies s r a b : xrel bodies s r → should_exclude r a b = true ↔ (a, b) ∈ xs_pairs s.
Proof.
  intros [Hb Hdom Harr Hin Hsym Hirr]. unfold should_exclude. destruct (x_ex r !! a) as [arr|] eqn:E.
  - destruct (Harr _ _ E) as (l & -> & _ & _ & Hm). rewrite num_arr, mem_arr, bool_decide_eq_true. apply Hm.
  - split; [done|]. intros [? Hx]%Hin%Hdom. congruence.
Qed.

Lemma should_collide_sym r a b : should_collide r a b = should_collide r b a.
Proof.
  unfold should_collide. rewrite (orb_comm (should_exclude r a b)).
  destruct (decide (a = b)) as [->|]; destruct (decide _); try congruence.
  destruct (x_filter r !! a) as [[g0 m0]|], (x_filter r !! b) as [[g1 m1]|]; try done.
  by rewrite orb_comm.
Qed.

(** Components of any state reached are within the array: entries are the
    members without duplicates. *)
Definition ex_list (r : exreg) (a : nat) : list nat :=
  match x_ex r !! a with Some arr => omap id (take (num_entities arr) arr) | None => [] end.
Lemma ex_list_spec bodies s r a : xrel bodies s r → NoDup (ex_list r a) ∧ ∀ b, b ∈ ex_list r a ↔ (a, b) ∈ xs_pairs s.
Proof.
  intros [Hb Hdom Harr Hin Hsym Hirr]. unfold ex_list. destruct (x_ex r !! a) as [arr|] eqn:E.
  - destruct (Harr _ _ E) as (l & -> & Hnd & _ & Hm). rewrite num_arr. unfold arr_of.
    rewrite take_app_alt by (by rewrite fmap_length).
    assert (omap id (Some <$> l) = l) as -> by (clear; induction l as [|x l IH]; simpl; [done|]; f_equal; apply IH). done.
  - split; [constructor|]. intros b. split; [by intros ?%elem_of_nil|]. intros [? Hx]%Hin%Hdom. congruence.
Qed.

Lemma clear_loop_filter a n : ∀ i r r', clear_loop r a i n = Ok r' → x_filter r' = x_filter r.
Proof.
  induction n as [|n IH]; intros i r r'; simpl; [by intros [= ->]|].
  intros (arr & _ & (slot & _ & (other & _ & (r1 & H1 & H2)%bind_ok)%bind_ok)%bind_ok)%bind_ok.
  apply IH in H2. rewrite H2. apply bind_ok in H1 as (arr1 & _ & [= <-]). done.
Qed.
Lemma one_way_filter r a b r' : exclude_one_way r a b = Ok r' → x_filter r' = x_filter r.
Proof.
  intros (_ & _ & H)%bind_ok. cbv zeta in H. destruct (ex_mem _ _ _); [by simplify_eq|].
  by apply bind_ok in H as (_ & _ & [= <-]).
Qed.
Lemma remove_one_filter r a b r' : remove_one_way r a b = Ok r' → x_filter r' = x_filter r.
Proof. by intros (arr1 & _ & [= <-])%bind_ok. Qed.
Lemma xstep_filter r o r' : xstep r o = Ok r' → x_filter r' = x_filter r.
Proof.
  destruct o; simpl; intros (r1 & H1 & H2)%bind_ok.
  - apply one_way_filter in H1, H2. congruence.
  - apply remove_one_filter in H1, H2. congruence.
  - apply bind_ok in H2 as (r2 & H2 & [= <-]). simpl. by eapply clear_loop_filter.
Qed.
Lemma xrun_filter ops : ∀ r r', rrun xstep r ops = Ok r' → x_filter r' = x_filter r.
Proof.
  induction ops as [|o ops IH]; intros r r'; simpl; [by intros [= ->]|].
  intros (r1 & H1 & H2)%bind_ok. apply IH in H2. apply xstep_filter in H1. congruence.
Qed.
Lemma should_collide_iff r a b :
  should_collide r a b = true ↔ a ≠ b ∧ filters_meet (x_filter r !! a) (x_filter r !! b) ∧
    should_exclude r a b = false ∧ should_exclude r b a = false.
Proof.
  unfold should_collide, filters_meet, all_groups. destruct (decide (a = b)) as [->|Hne]; [split; [done|tauto]|].
  assert (Hb : ∀ x y : N, (x =? 0)%N || (y =? 0)%N = false ↔ x ≠ 0%N ∧ y ≠ 0%N).
  { intros x y. rewrite orb_false_iff, !N.eqb_neq. done. }
  assert (Hx : ∀ c : bool, (if c then false else negb (should_exclude r a b || should_exclude r b a)) = true ↔
     c = false ∧ should_exclude r a b = false ∧ should_exclude r b a = false).
  { intros c. destruct c, (should_exclude r a b), (should_exclude r b a); simpl; split; intuition congruence. }
  rewrite Hx. destruct (x_filter r !! a) as [[g0 m0]|], (x_filter r !! b) as [[g1 m1]|]; cbn [default from_option id].
  - rewrite Hb. tauto.
  - rewrite Hb, (N.land_comm (N.ones 64) m0). tauto.
  - rewrite Hb, (N.land_comm (N.ones 64) m1). tauto.
  - rewrite N.land_diag. split; [|tauto]. intros (_ & ? & ?). done.
Qed.

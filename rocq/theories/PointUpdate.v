(** What one collision update does to the points of a manifold. *)
From Verif Require Import Outcome BoxModel PointModel PointSpec PointProofs PointSlot PointProcess PointFinish.

Section update.
Context {V Sc X : Type} (G : geo V Sc) (nz : rpoint V X → bool) (dflt : rpoint V X).
Notation preg := (preg V X).
Notation rpoint := (rpoint V X).
Notation entry := (nat * (rpoint * nat))%type.
Notation astate := (gmap nat (list entry)).
Notation slot := (@slot V X).

Lemma upd_pt_ids x p (l : list entry) : (upd_pt x p l).*1 = l.*1.
Proof. induction l as [|e l IH]; simpl; [done|]. f_equal; [|exact IH]. by case_decide. Qed.
Lemma upd_pt_elem x p (l : list entry) y q k :
  (y, (q, k)) ∈ upd_pt x p l → (y ≠ x ∧ (y, (q, k)) ∈ l) ∨ (y = x ∧ q = p ∧ ∃ p0, (x, (p0, k)) ∈ l).
Proof.
  unfold upd_pt. rewrite elem_of_list_fmap. intros ([z [pz kz]] & E & H). simpl in E. case_decide; simplify_eq/=; [right|left]; eauto.
Qed.

Lemma commit_src (result : list rpoint) (P : nat → Prop) (src : nat → option nat) (ss : list slot) : ∀ b l news dels l' news' dels',
  (∀ i s, ss !! i = Some s → s_type s ≠ INone → ∃ j, src (b + i) = Some j ∧ result !! j = Some (s_pt s) ∧ P j) →
  (∀ i1 i2 j, b ≤ i1 < b + length ss → b ≤ i2 < b + length ss → src i1 = Some j → src i2 = Some j → i1 = i2) →
  NoDup (omap s_ent ss) →
  foldl a_commit (l, news, dels) ss = (l', news', dels') →
  ∃ (u : nat → option nat) ps js ds,
    news' = news ++ ps ∧ dels' = dels ++ ds ∧ length ds ≤ length ps ∧ l'.*1 = l.*1 ∧
    length js = length ps ∧ (∀ i p j, ps !! i = Some p → js !! i = Some j → result !! j = Some p) ∧ NoDup js ∧
    (∀ j, j ∈ js → P j ∧ ∃ i, b ≤ i < b + length ss ∧ src i = Some j) ∧
    (∀ x p k, (x, (p, k)) ∈ l' →
       match u x with Some j => result !! j = Some p ∧ ∃ p0, (x, (p0, k)) ∈ l | None => (x, (p, k)) ∈ l end) ∧
    (∀ x j, u x = Some j → x ∈ omap s_ent ss ∧ j ∉ js ∧ P j ∧ ∃ i, b ≤ i < b + length ss ∧ src i = Some j) ∧
    (∀ x y j, u x = Some j → u y = Some j → x = y).
Proof.
  induction ss as [|s ss IH]; intros b l news dels l' news' dels' Hsrc Hinj Hnd Hf.
  { simpl in Hf. injection Hf as <- <- <-. exists (λ _, None), [], [], []. rewrite !app_nil_r. split_and!; try done; try (by intros ? ?%elem_of_nil). }
  assert (Hsrc' : ∀ i s, ss !! i = Some s → s_type s ≠ INone → ∃ j, src (S b + i) = Some j ∧ result !! j = Some (s_pt s) ∧ P j).
  { intros i s' Hi Ht. replace (S b + i) with (b + S i) by lia. by apply Hsrc. }
  assert (Hinj' : ∀ i1 i2 j, S b ≤ i1 < S b + length ss → S b ≤ i2 < S b + length ss → src i1 = Some j → src i2 = Some j → i1 = i2).
  { intros i1 i2 j ? ?. apply Hinj; simpl; lia. }
  assert (Hnd' : NoDup (omap s_ent ss)).
  { simpl in Hnd. destruct (s_ent s); [by apply NoDup_cons in Hnd as [_ ?]|done]. }
  assert (Hsub : ∀ x, x ∈ omap s_ent ss → x ∈ omap s_ent (s :: ss)).
  { intros x Hx. simpl. destruct (s_ent s); [by right|done]. }
  assert (Hrng : ∀ j, (∃ i, S b ≤ i < S b + length ss ∧ src i = Some j) → ∃ i, b ≤ i < b + length (s :: ss) ∧ src i = Some j).
  { intros j (i & ? & ?). exists i. simpl. split; [lia|done]. }
  cbn [foldl] in Hf. destruct (decide (s_type s = INone)) as [Et|Et].
  { assert (Ha : a_commit (l, news, dels) s = (l, news, dels)) by (unfold a_commit; by rewrite Et).
    rewrite Ha in Hf.
    destruct (IH (S b) l news dels l' news' dels' Hsrc' Hinj' Hnd' Hf) as (u & ps & js & ds & H1 & H2 & H3 & H4 & H5 & H6 & H7 & H8 & H9 & H10 & H11).
    exists u, ps, js, ds. split_and!; try done.
    - intros j Hj. destruct (H8 j Hj). eauto.
    - intros x j Hj. destruct (H10 x j Hj) as (? & ? & ? & ?). split_and!; eauto. }
  destruct (Hsrc 0 s eq_refl Et) as (j0 & Hj0 & Hr0 & HP0). rewrite Nat.add_0_r in Hj0.
  assert (Hfresh : ¬ ∃ i, S b ≤ i < S b + length ss ∧ src i = Some j0).
  { intros (i & Hi & E). assert (b = i) by (apply (Hinj b i j0); simpl; try lia; done). lia. }
  assert (Hcreate : ∀ ds0, length ds0 ≤ 1 → a_commit (l, news, dels) s = (l, news ++ [s_pt s], dels ++ ds0) →
    ∃ (u : nat → option nat) ps js ds,
    news' = news ++ ps ∧ dels' = dels ++ ds ∧ length ds ≤ length ps ∧ l'.*1 = l.*1 ∧
    length js = length ps ∧ (∀ i p j, ps !! i = Some p → js !! i = Some j → result !! j = Some p) ∧ NoDup js ∧
    (∀ j, j ∈ js → P j ∧ ∃ i, b ≤ i < b + length (s :: ss) ∧ src i = Some j) ∧
    (∀ x p k, (x, (p, k)) ∈ l' →
       match u x with Some j => result !! j = Some p ∧ ∃ p0, (x, (p0, k)) ∈ l | None => (x, (p, k)) ∈ l end) ∧
    (∀ x j, u x = Some j → x ∈ omap s_ent (s :: ss) ∧ j ∉ js ∧ P j ∧ ∃ i, b ≤ i < b + length (s :: ss) ∧ src i = Some j) ∧
    (∀ x y j, u x = Some j → u y = Some j → x = y)).
  { intros ds0 Hds0 Ha. rewrite Ha in Hf.
    destruct (IH (S b) _ _ _ l' news' dels' Hsrc' Hinj' Hnd' Hf) as (u & ps & js & ds & H1 & H2 & H3 & H4 & H5 & H6 & H7 & H8 & H9 & H10 & H11).
    exists u, (s_pt s :: ps), (j0 :: js), (ds0 ++ ds). split_and!; try done.
    - rewrite H1, <- (assoc_L (++)). done.
    - by rewrite H2, <- (assoc_L (++)).
    - rewrite app_length. simpl. lia.
    - simpl. by rewrite H5.
    - intros [|i] p j; simpl; [intros [= <-] [= <-]; done|apply H6].
    - apply NoDup_cons. split; [|done]. intros Hj. apply Hfresh. by apply H8.
    - intros j [->|Hj]%elem_of_cons; [split; [done|]; exists b; simpl; split; [lia|done]|]. destruct (H8 j Hj). eauto.
    - intros x j Hj. destruct (H10 x j Hj) as (? & ? & ? & ?). split_and!; eauto. rewrite not_elem_of_cons. split; [|done].
      intros ->. by apply Hfresh. }
  destruct (s_ent s) as [e|] eqn:Ee.
  - destruct (s_type s) eqn:Et2; [done| | |].
    + (* merge *)
      assert (Ha : a_commit (l, news, dels) s = (upd_pt e (s_pt s) l, news, dels)) by (unfold a_commit; by rewrite Et2, Ee).
      rewrite Ha in Hf.
      destruct (IH (S b) _ _ _ l' news' dels' Hsrc' Hinj' Hnd' Hf) as (u & ps & js & ds & H1 & H2 & H3 & H4 & H5 & H6 & H7 & H8 & H9 & H10 & H11).
      assert (Hom : omap s_ent (s :: ss) = e :: omap s_ent ss) by (simpl; by rewrite Ee). rewrite Hom in Hnd.
      apply NoDup_cons in Hnd as [He _].
      assert (Hue : u e = None) by (destruct (u e) eqn:E; [by destruct (H10 _ _ E)|done]).
      exists (λ x, if decide (x = e) then Some j0 else u x), ps, js, ds. split_and!; try done.
      * by rewrite H4, upd_pt_ids.
      * intros j Hj. destruct (H8 j Hj). eauto.
      * intros x p k Hx. specialize (H9 x p k Hx). case_decide as Hxe.
        -- subst x. rewrite Hue in H9. apply upd_pt_elem in H9 as [[? _]|(_ & -> & ?)]; [done|]. eauto.
        -- destruct (u x) as [j|].
           ++ destruct H9 as (? & p0 & H9). split; [done|]. apply upd_pt_elem in H9 as [[_ ?]|[? _]]; [eauto|done].
           ++ apply upd_pt_elem in H9 as [[_ ?]|[? _]]; [done|done].
      * intros x j. case_decide as Hxe.
        -- intros [= <-]. subst x. split_and!; [rewrite Hom; by left| |done|].
           ++ intros Hj. apply Hfresh. by apply H8.
           ++ exists b. simpl. split; [lia|done].
        -- intros Hj. destruct (H10 x j Hj) as (? & ? & ? & ?). split_and!; eauto.
      * intros x y j. case_decide; case_decide; subst; try done.
        -- intros [= <-] Hy. exfalso. apply Hfresh. by apply (H10 _ _ Hy).
        -- intros Hx [= <-]. exfalso. apply Hfresh. by apply (H10 _ _ Hx).
        -- apply H11.
    + apply (Hcreate [e]); [done|]. unfold a_commit. by rewrite Et2, Ee.
    + apply (Hcreate []); [simpl; lia|]. unfold a_commit. by rewrite Et2, app_nil_r.
  - apply (Hcreate []); [simpl; lia|]. unfold a_commit. rewrite Ee, app_nil_r. by destruct (s_type s).
Qed.

Lemma filter_ids_sublist (P : entry → Prop) `{∀ e, Decision (P e)} (l : list entry) : (filter P l).*1 `sublist_of` l.*1.
Proof. induction l as [|e l IH]; [done|]. rewrite filter_cons. simpl. case_decide; by constructor. Qed.
Lemma news_entries_elem f0 (news : list rpoint) x p k : (x, (p, k)) ∈ news_entries f0 news → k = 0 ∧ ∃ i, x = f0 + i ∧ news !! i = Some p.
Proof.
  unfold news_entries. rewrite elem_of_reverse, elem_of_lookup_imap. intros (i & y & E & Hi). injection E as -> -> ->. eauto.
Qed.

Lemma a_commit_new (ss : list slot) : ∀ l news dels l' news' dels' s,
  foldl a_commit (l, news, dels) ss = (l', news', dels') → (news ≠ [] ∨ (s ∈ ss ∧ s_ent s = None ∧ s_type s ≠ INone)) → news' ≠ [].
Proof.
  induction ss as [|s0 ss IH]; intros l news dels l' news' dels' s Hf Hor.
  { simpl in Hf. injection Hf as <- <- <-. destruct Hor as [?|[?%elem_of_nil _]]; done. }
  cbn [foldl] in Hf. destruct (a_commit (l, news, dels) s0) as [[l1 news1] dels1] eqn:Ea.
  eapply (IH _ _ _ _ _ _ s); [exact Hf|].
  assert (Hmono : news ≠ [] → news1 ≠ []).
  { intros Hn. unfold a_commit in Ea. destruct (s_type s0), (s_ent s0); simplify_eq/=; try done; by destruct news. }
  destruct Hor as [Hn|(Hs & He & Ht)]; [by left; apply Hmono|].
  apply elem_of_cons in Hs as [->|Hs]; [|by right]. left.
  unfold a_commit in Ea. rewrite He in Ea. destruct (s_type s0); simplify_eq/=; try done; by destruct news.
Qed.

Lemma insertion_mono (pts : list V) num p t i n : insertion_point_index G pts num p = Ok (t, i, n) → num ≤ n.
Proof.
  unfold insertion_point_index. intros H. apply bind_ok in H as ([] & _ & H).
  destruct num as [|[|[|[|num]]]]; simpl in H; repeat (apply bind_ok in H as (? & _ & H)); repeat case_match; simplify_eq/=; try lia.
  apply bind_ok in H as (? & _ & H). simplify_eq/=. lia.
Qed.
Lemma place_all_num (result : list rpoint) : ∀ merged (slots : list slot) num slots2 num2,
  place_all G merged result (slots, num) = Ok (slots2, num2) → num ≤ num2.
Proof.
  induction result as [|p result IH]; intros merged slots num slots2 num2 H; simpl in H; [by simplify_eq|].
  apply bind_ok in H as (b & _ & H). apply bind_ok in H as ([sl n] & Hp & H). specialize (IH _ _ _ _ _ H).
  assert (num ≤ n); [|lia]. destruct b; [by simplify_eq|]. unfold place in Hp. simpl in Hp.
  apply bind_ok in Hp as ([[t i] k] & Hs & Hp). unfold find_slot in Hs. apply bind_ok in Hs as ([[t1 i1] k1] & H1 & H2).
  apply insertion_mono in H1. assert (k1 ≤ k) by (destruct (decide (t1 = INone)); [by apply insertion_mono in H2|by simplify_eq]).
  destruct (decide (t = INone)); [simplify_eq; lia|]. apply bind_ok in Hp as (? & _ & Hp). apply bind_ok in Hp as (? & _ & Hp). simplify_eq. lia.
Qed.
Lemma del_ids_small (ds : list nat) (l : list entry) : NoDup l.*1 → length ds < length l → del_ids ds l ≠ [].
Proof.
  revert l. induction ds as [|x ds IH]; intros l Hn Hl; [destruct l; [simpl in Hl; lia|done]|]. simpl in Hl |- *.
  apply IH; [by apply del_id_NoDup|]. destruct (decide (x ∈ l.*1)) as [Hx|Hx].
  - pose proof (del_id_length x l Hn Hx). lia.
  - rewrite del_id_notin by done. lia.
Qed.

Lemma a_process_updated env f0 l result l' news dels :
  finite G → NoDup l.*1 → (∀ x, x ∈ l.*1 → x < f0) → length l ≤ max_contacts → length result ≤ max_contacts →
  a_process G dflt env l result = Ok (l', news, dels) →
  updated (e_sep env) result l (news_entries f0 news ++ del_ids dels l') ∧ l'.*1 = l.*1 ∧ (∀ p, p ∈ news → p ∈ result).
Proof.
  intros HF Hnd Hold Hl Hr Hp. unfold a_process in Hp.
  destruct (a_walk G env result l (replicate max_contacts false)) as [[l1 mg] rm] eqn:Ew.
  destruct (a_walk_src G nz dflt _ _ _ _ _ _ _ Ew Hnd) as (src1 & _ & W2 & W3 & W4 & W5 & W6 & W7 & _ & _).
  assert (Hl1 : l1.*1 = l.*1).
  { pose proof (a_walk_ids G env result l (replicate max_contacts false)) as H. rewrite Ew in H. exact H. }
  assert (W3' : ∀ x p k, (x, (p, k)) ∈ l1 → ∃ p0 k0, (x, (p0, k0)) ∈ l ∧ k = S k0 ∧
      match src1 x with Some j => result !! j = Some p ∧ mg !! j = Some true | None => p = p0 end).
  { intros x p k Hx. assert (Hxl : x ∈ l.*1) by (rewrite <- Hl1; apply elem_of_list_fmap; by exists (x, (p, k))).
    apply elem_of_list_fmap in Hxl as ([x0 [p0 k0]] & E & Hx0). simpl in E. subst x0.
    destruct (W3 _ _ _ Hx0) as (p' & Hx' & H). exists p0, k0. split; [done|].
    assert ((x, (p, k)) = (x, (p', S k0))) as [= -> ->].
    { apply elem_of_list_lookup in Hx as (i & Hi). apply elem_of_list_lookup in Hx' as (i' & Hi').
      assert (i = i') as -> by (eapply (NoDup_ids_inj l1); [by rewrite Hl1|exact Hi|exact Hi'|done]). congruence. }
    split; [done|]. destruct (src1 x); [tauto|done]. }
  (* both endings *)
  assert (HH : ∃ (u : nat → option nat) js ds,
    dels = rm ++ ds ∧ length ds ≤ length news ∧ l'.*1 = l1.*1 ∧
    length js = length news ∧ (∀ i p j, news !! i = Some p → js !! i = Some j → result !! j = Some p) ∧ NoDup js ∧
    (∀ j, j ∈ js → mg !! j = Some false) ∧
    (∀ x p k, (x, (p, k)) ∈ l' →
       match u x with Some j => result !! j = Some p ∧ ∃ p0, (x, (p0, k)) ∈ l1 | None => (x, (p, k)) ∈ l1 end) ∧
    (∀ x j, u x = Some j → j ∉ js ∧ mg !! j = Some false) ∧
    (∀ x y j, u x = Some j → u y = Some j → x = y) ∧
    (result ≠ [] → news ≠ [] ∨ length ds < length (del_ids rm l1))).
  { destruct (forallb id (take (length result) mg)) eqn:Eall.
    - injection Hp as <- <- <-. exists (λ _, None), [], []. rewrite app_nil_r. split_and!; try done; try (by intros ? ?%elem_of_nil); try apply NoDup_nil_2.
      intros Hne. right. simpl. pose proof (a_walk_merged G env result l (replicate max_contacts false)) as Hml. rewrite Ew in Hml. simpl in Hml.
      destruct result as [|q result]; [done|]. destruct mg as [|b mg]; [done|]. simpl in Eall.
      assert (E0 : (b :: mg) !! 0 = Some true) by (destruct b; done).
      destruct (W2 0 E0) as [H0|(x & Hx & Hs)]; [done|].
      apply elem_of_list_fmap in Hx as ([x0 [p0 k0]] & E & Hx). simpl in E. subst x0. destruct (W3 _ _ _ Hx) as (p' & Hx' & H). rewrite Hs in H.
      destruct H as (_ & _ & _ & Hrm). assert (Hin : (x, (p', S k0)) ∈ del_ids rm l1) by (rewrite del_ids_filter; by apply elem_of_list_filter).
      destruct (del_ids rm l1); [by apply elem_of_nil in Hin|simpl; lia].
    - destruct (placed G nz dflt env l result l1 mg rm HF) as (slots & num & merged & slots2 & num2 & src & Hs & Hpl & HS); try done.
      rewrite Hs in Hp. cbn [mbind res_bind] in Hp. rewrite Hpl in Hp. cbn [mbind res_bind] in Hp. injection Hp as Hp.
      assert (Htk : length (take num2 slots2) = num2) by (rewrite take_length, (so_len _ _ _ _ _ _ _ HS); pose proof (so_hi _ _ _ _ _ _ _ HS); lia).
      assert (Hlk : ∀ i s, take num2 slots2 !! i = Some s → slots2 !! i = Some s ∧ i < num2).
      { intros i s Hi. pose proof (lookup_lt_Some _ _ _ Hi) as Hlt. rewrite Htk in Hlt. rewrite lookup_take in Hi by done. done. }
      destruct (commit_src result (λ j, mg !! j = Some false) src (take num2 slots2) 0 l1 [] rm l' news dels)
        as (u & ps & js & ds & H1 & H2 & H3 & H4 & H5 & H6 & H7 & H8 & H9 & H10 & H11).
      + intros i s Hi Ht. destruct (Hlk _ _ Hi). by apply (so_src _ _ _ _ _ _ _ HS).
      + intros i1 i2 j ? ?. rewrite Htk in *. apply (so_inj _ _ _ _ _ _ _ HS); lia.
      + destruct (omap_ents (del_ids rm l1) (take num2 slots2)) as [Ho _].
        { intros i s Hi. destruct (Hlk _ _ Hi). by eapply (so_ent _ _ _ _ _ _ _ HS). }
        rewrite Ho, Htk, take_ge by (rewrite fmap_length; apply HS). apply del_ids_NoDup. by rewrite Hl1.
      + done.
      + simpl in H1. subst ps. exists u, js, ds. split_and!; try done.
        * intros j Hj. by apply H8.
        * intros x j Hj. destruct (H10 x j Hj) as (? & ? & ? & ?). done.
        * intros Hne. destruct (del_ids rm l1) as [|e0 kept] eqn:Ek.
          -- left. rewrite decide_False in Hs by (simpl; lia).
             assert (Hn1 : 0 < num2).
             { destruct (decide (0 < num2)) as [|Hz]; [done|]. assert (num2 = 0) as -> by lia.
               exfalso. destruct (head result) as [q|] eqn:Eh; [|done]. cbn [opt_res mbind res_bind] in Hs. injection Hs as <- <- <-.
               pose proof (place_all_num _ _ _ _ _ _ Hpl). lia. }
             destruct (lookup_lt_is_Some_2 slots2 0) as [s0 Hs0]; [rewrite (so_len _ _ _ _ _ _ _ HS); unfold max_contacts; lia|].
             eapply (a_commit_new _ _ _ _ _ _ _ s0); [exact Hp|]. right. split_and!.
             ++ eapply (elem_of_list_lookup_2 _ 0). by rewrite lookup_take.
             ++ rewrite (so_ent _ _ _ _ _ _ _ HS 0 s0 Hs0 Hn1). done.
             ++ eapply (so_new _ _ _ _ _ _ _ HS); [exact Hs0|]. simpl. lia.
          -- destruct (decide (news = [])) as [->|]; [|by left]. right. simpl in H3 |- *. lia. }
  clear Hp. destruct HH as (u & js & ds & -> & Hds & Hl' & Hjs & Hjr & Hjn & Hjm & Hu & Hum & Hui & Hne).
  assert (Hkept : ∀ x p k, (x, (p, k)) ∈ del_ids (rm ++ ds) l' → x < f0 ∧ (x, (p, k)) ∈ l').
  { intros x p k. rewrite del_ids_filter, elem_of_list_filter. intros [_ Hx]. split; [|done]. apply Hold. rewrite <- Hl1, <- Hl'.
    apply elem_of_list_fmap. by exists (x, (p, k)). }
  set (src := λ x, if decide (x < f0) then match u x with Some j => Some j | None => src1 x end else js !! (x - f0)).
  split_and!; [|congruence|].
  - exists (news_entries f0 news), (del_ids (rm ++ ds) l'), src, ds. split_and!.
    + done.
    + rewrite del_ids_filter. rewrite <- Hl1, <- Hl'. apply filter_ids_sublist.
    + intros x p k (-> & i & -> & Hi)%news_entries_elem. split_and!; [done| |].
      * intros Hx%Hold. lia.
      * unfold src. rewrite decide_False by lia. apply lookup_lt_is_Some. rewrite Hjs. apply lookup_lt_Some in Hi. lia.
    + intros x p k Hx. destruct (Hkept _ _ _ Hx) as [Hlt Hx']. specialize (Hu _ _ _ Hx'). unfold src. rewrite decide_True by done.
      destruct (u x) as [j|].
      * destruct Hu as (_ & p1 & H1). destruct (W3' _ _ _ H1) as (p0 & k0 & ? & ? & _). exists p0, k0. done.
      * destruct (W3' _ _ _ Hu) as (p0 & k0 & ? & ? & H). exists p0, k0. split_and!; try done. intros E. by rewrite E in H.
    + intros x p k j. rewrite elem_of_app. intros [(-> & i & -> & Hi)%news_entries_elem|Hx].
      * unfold src. rewrite decide_False by lia. replace (f0 + i - f0) with i by lia. by apply Hjr.
      * destruct (Hkept _ _ _ Hx) as [Hlt Hx']. specialize (Hu _ _ _ Hx'). unfold src. rewrite decide_True by done.
        destruct (u x) as [j'|]; [intros [= <-]; by destruct Hu|].
        destruct (W3' _ _ _ Hu) as (p0 & k0 & ? & ? & H). intros E. rewrite E in H. by destruct H.
    + assert (Hmt : ∀ x j, x ∈ (news_entries f0 news ++ del_ids (rm ++ ds) l').*1 → x < f0 → u x = None → src1 x = Some j → mg !! j = Some true).
      { intros x j Hx Hlt Hux Hs. rewrite fmap_app, elem_of_app in Hx. destruct Hx as [Hx%news_entries_ids|Hx]; [lia|].
        apply elem_of_list_fmap in Hx as ([x0 [p k]] & E & Hx). simpl in E. subst x0. destruct (Hkept _ _ _ Hx) as [_ Hx'].
        specialize (Hu _ _ _ Hx'). rewrite Hux in Hu. destruct (W3' _ _ _ Hu) as (p0 & k0 & _ & _ & H). rewrite Hs in H. by destruct H. }
      assert (Hsrc : ∀ x j, x ∈ (news_entries f0 news ++ del_ids (rm ++ ds) l').*1 → src x = Some j →
         (x < f0 ∧ u x = Some j ∧ mg !! j = Some false ∧ j ∉ js) ∨ (x < f0 ∧ src1 x = Some j ∧ mg !! j = Some true) ∨
         (f0 ≤ x ∧ js !! (x - f0) = Some j ∧ mg !! j = Some false ∧ j ∈ js)).
      { intros x j Hx. unfold src. case_decide as Hlt.
        - destruct (u x) as [j'|] eqn:E; [intros [= <-]; left; destruct (Hum _ _ E); done|]. intros Hs. right. left. eauto.
        - intros Hs. right. right. assert (j ∈ js) by (by eapply elem_of_list_lookup_2). split_and!; try done; [lia|auto]. }
      intros x y j Hx Hy Hsx Hsy.
      destruct (Hsrc x j Hx Hsx) as [(?&E1&F1&N1)|[(?&E1&F1)|(?&E1&F1&N1)]], (Hsrc y j Hy Hsy) as [(?&E2&F2&N2)|[(?&E2&F2)|(?&E2&F2&N2)]]; try congruence; try done.
      * by eapply Hui.
      * by eapply W4.
      * assert (x - f0 = y - f0) by (by eapply (NoDup_lookup js)). lia.
    + intros x p k Hx. destruct (decide (x ∈ rm)) as [Hrm|Hrm].
      { right. left. destruct (W6 _ Hrm) as (p' & k' & Hx' & Hsep).
        apply elem_of_list_lookup in Hx as (i & Hi). apply elem_of_list_lookup in Hx' as (i' & Hi').
        assert (i = i') as -> by (eapply (NoDup_ids_inj l); [done|exact Hi|exact Hi'|done]). congruence. }
      destruct (decide (x ∈ ds)) as [Hd|Hd]; [by right; right|]. left. rewrite fmap_app, elem_of_app. right.
      apply del_ids_ids. split; [|rewrite elem_of_app; tauto]. rewrite Hl', Hl1. apply elem_of_list_fmap. by exists (x, (p, k)).
    + by rewrite news_entries_length.
    + intros x p k Hx Hin Hsep. assert (Hlt : x < f0) by (apply Hold, elem_of_list_fmap; by exists (x, (p, k))).
      unfold src. rewrite decide_True by done. destruct (u x); [eauto|]. destruct (src1 x) eqn:E; [eauto|]. exfalso.
      specialize (W7 _ _ _ Hx E Hsep). rewrite fmap_app, elem_of_app in Hin. destruct Hin as [Hin%news_entries_ids|Hin]; [lia|].
      apply del_ids_ids in Hin as [_ Hin]. apply Hin, elem_of_app. by left.
    + intros Hr0 E. apply app_eq_nil in E as [E1 E2]. destruct (Hne Hr0) as [Hn|Hn].
      * apply Hn. apply (f_equal length) in E1. rewrite news_entries_length in E1. by apply nil_length_inv.
      * assert (Hx : del_ids ds (del_ids rm l1) ≠ []) by (apply del_ids_small; [by apply del_ids_NoDup; rewrite Hl1|done]).
        destruct (del_ids ds (del_ids rm l1)) as [|[x dx] rest] eqn:E; [done|].
        assert (Hxi : x ∈ (del_ids ds (del_ids rm l1)).*1) by (rewrite E; by left).
        apply del_ids_ids in Hxi as [[H1 H2]%del_ids_ids H3].
        assert (Hxi : x ∈ (del_ids (rm ++ ds) l').*1) by (apply del_ids_ids; rewrite Hl'; split; [done|]; rewrite elem_of_app; tauto).
        rewrite E2 in Hxi. by apply elem_of_nil in Hxi.
  - intros p (i & Hi)%elem_of_list_lookup. destruct (lookup_lt_is_Some_2 js i) as [j Hj]; [rewrite Hjs; by eapply lookup_lt_Some|].
    eapply elem_of_list_lookup_2. by eapply Hjr.
Qed.
End update.

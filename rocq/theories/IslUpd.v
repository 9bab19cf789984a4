(** One update of the islands. *)
From Coq Require Import ZArith.
From Verif Require Import Outcome FreeListModel FreeListProofs GraphModel GraphSpec GraphProofs GraphHist GraphWalk GraphMain
  IslModel IslSpec IslBase IslInv IslData IslRel IslReach IslInit IslSplit IslOne.

(** ** All splits *)
Lemma prune_spec (P : nat → Prop) `{∀ x, Decision (P x)} xs : ∀ l, NoDup l →
  NoDup (foldl (λ l x, if decide (P x) then l else ss_pop x l) l xs) ∧
  ∀ y, y ∈ foldl (λ l x, if decide (P x) then l else ss_pop x l) l xs ↔ y ∈ l ∧ (y ∈ xs → P y).
Proof.
  induction xs as [|x xs IH]; intros l Hl; cbn [foldl].
  - split; [done|]. intros y. split; [|tauto]. intros Hy. split; [done|]. intros Hn. by apply elem_of_nil in Hn.
  - case_decide as Hx.
    + destruct (IH l Hl) as [N E]. split; [done|]. intros y. rewrite E, elem_of_cons. split; [|tauto].
      intros [Hy Hi]. split; [done|]. intros [->|?]; auto.
    + destruct (ss_pop_spec x l Hl) as [N1 E1]. destruct (IH _ N1) as [N E]. split; [done|]. intros y. rewrite E, E1, elem_of_cons. split.
      * intros [[Hy Hne] Hi]. split; [done|]. intros [->|?]; [done|auto].
      * intros [Hy Hi]. split_and!; [done| |tauto]. intros ->. apply Hx. tauto.
Qed.

Lemma inv_set_split s m w l : inv s m w → NoDup l → (∀ x, x ∈ l → x ∈ w_split w) → inv s m (set_split w l).
Proof.
  intros [P [] [] R HS] Hnd Hsub. split; [done| |by split|by eapply rel_same|done]. split; try done.
  intros x. cbn. intros Hx. apply st_lists. rewrite elem_of_app in *. destruct Hx; auto.
Qed.
Lemma tight_no_island s w J : ¬ is_island w J → tight s w J.
Proof. intros Hn x y (il & Hil & _). exfalso. apply Hn. by eexists. Qed.

Lemma split_islands_ok s m w : inv s m w → complete s w →
  ∃ w', split_islands w = Ok w' ∧ inv s m w' ∧ complete s w' ∧ keeps w w' ∧ same (set_split w []) w' ∧
    ((∀ J, J ∉ w_split w → tight s w J) → ∀ J, tight s w' J).
Proof.
  intros IV C. unfold split_islands.
  destruct (prune_spec (λ isl, isl ∈ w_valid w) (reverse (w_split w)) (w_split w) (iv_split _ _ _ IV)) as [Hnd Hl].
  set (l := foldl _ _ _) in *.
  assert (Hl' : ∀ y, y ∈ l ↔ y ∈ w_split w ∧ is_island w y).
  { intros y. rewrite Hl, elem_of_reverse. split.
    - intros [Hy Hv]. split; [done|]. specialize (Hv Hy). apply (st_valid _ _ (iv_store _ _ _ IV)) in Hv.
      destruct (st_lists _ _ (iv_store _ _ _ IV) y) as (_ & ? & ?); [rewrite elem_of_app; by left|]. tauto.
    - intros [Hy Hi]. split; [done|]. intros _. apply (st_valid _ _ (iv_store _ _ _ IV)). tauto. }
  destruct (fold_res_ind split_one (λ l1 w1, inv s m w1 ∧ complete s w1 ∧ keeps w w1 ∧ same w w1 ∧
    (∀ J, is_island w J → J ∉ l1 → w_isl w1 !! J = w_isl w !! J) ∧ (∀ J, J ∈ l1 ∨ tight s w J → tight s w1 J)) (reverse l) w)
    as (w1 & -> & IV1 & C1 & K1 & S1 & _ & T1).
  - split_and!; [done..|apply keeps_refl|apply same_refl|done|]. intros J [HJ|?]; [by apply elem_of_nil in HJ|done].
  - intros l1 x l2 w1 Hr (IV1 & C1 & K1 & S1 & O1 & T1).
    assert (Hx : x ∈ reverse l) by (rewrite Hr, elem_of_app, elem_of_cons; tauto).
    assert (Hx1 : x ∉ l1).
    { rewrite <- reverse_Permutation, Hr in Hnd. apply NoDup_app in Hnd as (_ & Hd & _). intros Hy. apply (Hd x Hy). apply elem_of_list_here. }
    rewrite elem_of_reverse in Hx. apply Hl' in Hx as [_ Hx].
    destruct (split_one_ok s m w1 x IV1 C1) as (w2 & Hw2 & [IV2 C2 K2 S2 O2 T2]).
    { unfold is_island. by rewrite O1. }
    exists w2. split; [done|]. split_and!; [done..|by eapply keeps_trans|by eapply same_trans| |].
    + intros J HJ HJl. rewrite elem_snoc in HJl. rewrite O2; [apply O1; tauto|tauto|]. unfold is_island. rewrite O1; tauto.
    + intros J HJ. rewrite elem_snoc in HJ. apply T2. destruct HJ as [[?|?]|?]; auto.
  - cbn [mbind res_bind]. eexists. split; [done|]. split_and!.
    + apply inv_set_split; [done|constructor|]. intros x Hx. by apply elem_of_nil in Hx.
    + exact C1.
    + eapply keeps_trans; [exact K1|]. split; try done. intros J il' HJ. right. eauto.
    + destruct S1. by split.
    + intros Ht J. apply (T1 J). rewrite elem_of_reverse, Hl'. destruct (decide (J ∈ w_split w)) as [HJ|HJ]; [|right; by apply Ht].
      destruct (w_isl w !! J) as [il|] eqn:E; [left; split; [done|by eexists]|]. right. apply tight_no_island. intros [? ?]. congruence.
Qed.

(** ** Waking *)
Lemma wake_slp s m w h il : inv s m w → w_isl w !! h = Some il →
  slp (set_asleep w (w_asleep w ∖ ({[h]} ∪ lst (il_nodes il) ∪ lst (il_edges il)))).
Proof.
  intros IV Hil. pose proof (iv_store _ _ _ IV) as ST.
  assert (Hel : ∀ y, y ∈ w_asleep w ∖ ({[h]} ∪ lst (il_nodes il) ∪ lst (il_edges il)) ↔
    y ∈ w_asleep w ∧ y ≠ h ∧ ¬ member w h y ∧ ¬ emember w h y).
  { intros y. rewrite elem_of_difference, !elem_of_union, elem_of_singleton, !elem_lst.
    assert (member w h y ↔ y ∈ il_nodes il) as ->.
    { split; [intros (? & ? & ?); by simplify_eq|by exists il]. }
    assert (emember w h y ↔ y ∈ il_edges il) as ->.
    { split; [intros (? & ? & ?); by simplify_eq|by exists il]. }
    tauto. }
  assert (Hisl : ∀ K, is_island w K → ¬ member w h K ∧ ¬ emember w h K).
  { intros K HK. split; intros Hn.
    - apply (pt_nlive _ _ _ _ (iv_part _ _ _ IV)) in Hn. apply (st_node _ _ ST) in Hn. tauto.
    - apply (pt_elive _ _ _ _ (iv_part _ _ _ IV)) in Hn. apply (st_edge _ _ ST) in Hn. tauto. }
  split; cbn.
  - intros y. rewrite Hel. intros (Hy & Hyh & Hm & He). destruct (sl_up _ (iv_slp _ _ _ IV) y Hy) as [Hi|(K & HK & HKa)]; [by left|].
    right. exists K. split; [done|]. apply Hel. assert (is_island w K) as HKi by (by eapply in_island_island).
    split_and!; [done| |by apply Hisl..]. intros ->. destruct (in_island_mem s m w y h IV HK) as [[_ ?]|[_ ?]]; done.
  - intros y K HK HKa. rewrite Hel in HKa. destruct HKa as (HKa & HKh & _). apply Hel.
    split_and!; [by eapply (sl_down _ (iv_slp _ _ _ IV))|..].
    + intros ->. destruct (in_island_mem s m w h K IV HK) as [[Hp _]|[Hk _]].
      * destruct (st_node _ _ ST h (procedural_node _ _ Hp)) as (_ & _ & Hn). apply Hn. by eexists.
      * destruct (st_edge _ _ ST h Hk) as (_ & Hn). apply Hn. by eexists.
    + intros Hm. destruct (in_island_mem s m w y K IV HK) as [[Hp Hm']|[Hk _]].
      * apply (pt_node _ _ _ _ (iv_part _ _ _ IV)) in Hm, Hm'; [|done..]. congruence.
      * apply (inv_sep _ _ _ IV y); [|done]. by eapply (pt_nlive _ _ _ _ (iv_part _ _ _ IV)).
    + intros Hm. destruct (in_island_mem s m w y K IV HK) as [[Hp _]|[Hk Hm']].
      * apply (inv_sep _ _ _ IV y); [by apply procedural_node|]. by eapply (pt_elive _ _ _ _ (iv_part _ _ _ IV)).
      * apply (pt_edge _ _ _ _ (iv_part _ _ _ IV)) in Hm, Hm'; [|done..]. congruence.
Qed.
Lemma inv_set_asleep s m w A : inv s m w → slp (set_asleep w A) → inv s m (set_asleep w A).
Proof. intros [P [] SL R HS] HA. split; [done|by split|done|by eapply rel_same|done]. Qed.
Lemma set_asleep_self w : set_asleep w (w_asleep w) = w.
Proof. by destruct w. Qed.
Lemma set_asleep_twice w A B : set_asleep (set_asleep w A) B = set_asleep w B.
Proof. done. Qed.

Lemma wake_islands_ok s m w : inv s m w →
  ∃ A, wake_islands w = Ok (set_wake (set_asleep w A) []) ∧ inv s m (set_wake (set_asleep w A) []) ∧ A ⊆ w_asleep w ∧
    ∀ h, h ∈ w_wake w → is_island w h → h ∉ A.
Proof.
  intros IV. unfold wake_islands.
  destruct (fold_res_ind (λ w isl, if decide (isl ∈ w_valid w) then wake_island w isl else Ok w)
    (λ l w', ∃ A, w' = set_asleep w A ∧ inv s m w' ∧ A ⊆ w_asleep w ∧ ∀ h, h ∈ l → is_island w h → h ∉ A) (reverse (w_wake w)) w)
    as (w' & -> & A & -> & IV' & Hsub & Hw).
  - exists (w_asleep w). split_and!; [by rewrite set_asleep_self|done|done|]. intros h Hh. by apply elem_of_nil in Hh.
  - intros l1 h l2 w1 Hl (A & -> & IV1 & Hsub & Hw).
    assert (Hh : h ∈ w_wake w) by (apply elem_of_reverse; rewrite Hl, elem_of_app, elem_of_cons; tauto).
    destruct (st_lists _ _ (iv_store _ _ _ IV) h) as (_ & Hnn & Hne); [rewrite elem_of_app; by right|].
    case_decide as Hv.
    + assert (is_island w h) as [il Hil].
      { cbn in Hv. apply (st_valid _ _ (iv_store _ _ _ IV)) in Hv. tauto. }
      unfold wake_island. cbn [w_asleep set_asleep]. case_decide as Ha.
      * cbn [w_isl set_asleep]. rewrite Hil. cbn [opt_res mbind res_bind]. eexists. split; [done|]. eexists. split; [done|].
        split_and!.
        -- apply (inv_set_asleep s m (set_asleep w A)); [done|]. by apply (wake_slp s m (set_asleep w A) h il).
        -- intros y. cbn. rewrite elem_of_difference. intros [? _]. auto.
        -- intros J HJ HJi. cbn. rewrite elem_of_difference. intros [HJA HJn]. rewrite elem_snoc in HJ. destruct HJ as [HJ| ->].
           ++ by apply (Hw J).
           ++ apply HJn. rewrite !elem_of_union, elem_of_singleton. tauto.
      * eexists. split; [done|]. exists A. split_and!; [done..|]. intros J HJ HJi. rewrite elem_snoc in HJ. destruct HJ as [HJ| ->]; auto.
    + eexists. split; [done|]. exists A. split_and!; [done..|]. intros J HJ HJi. rewrite elem_snoc in HJ. destruct HJ as [HJ| ->]; auto.
      exfalso. apply Hv. cbn. apply (st_valid _ _ (iv_store _ _ _ IV)). tauto.
  - cbn [mbind res_bind]. exists A. split; [done|]. split_and!; [|done|].
    + destruct IV' as [P [] [] R HS]. split; [done| |by split|by eapply rel_same|done]. split; try done.
      intros x. cbn. intros Hx. apply st_lists. rewrite elem_of_app in *. destruct Hx as [?|Hx]; [by left|by apply elem_of_nil in Hx].
    + intros h Hh. apply Hw. by apply elem_of_reverse.
Qed.

(** ** Putting to sleep *)
(** The stamp after the check of one island, and whether it is put to sleep *)
Definition falls (tts : Z) (w : world) (il : island) : bool :=
  calm w il && match il_sleep il with Some t0 => (tts <? w_last w - t0)%Z | None => false end.
Definition stamp' (tts : Z) (w : world) (h : nat) (il : island) : option Z :=
  if decide (h ∈ w_asleep w) then il_sleep il
  else if calm w il then
    match il_sleep il with None => Some (w_last w) | Some t0 => if (tts <? w_last w - t0)%Z then None else Some t0 end
  else None.

Lemma emplace_asleep_ok w x : x ∉ w_asleep w → emplace_asleep w x = Ok (set_asleep w ({[x]} ∪ w_asleep w)).
Proof. intros H. unfold emplace_asleep. by rewrite bool_decide_true. Qed.
Lemma emplace_list_ok w l : NoDup l → (∀ x, x ∈ l → x ∉ w_asleep w) →
  fold_res emplace_asleep w l = Ok (set_asleep w (lst l ∪ w_asleep w)).
Proof.
  revert w. induction l as [|x l IH]; intros w Hnd Hna.
  - cbn. f_equal. rewrite <- (set_asleep_self w) at 1. f_equal. apply set_eq. intros y. cbn. rewrite elem_of_union. set_solver.
  - apply NoDup_cons in Hnd as [Hx Hnd]. rewrite fold_res_cons.
    rewrite emplace_asleep_ok by (apply Hna, elem_of_list_here). cbn [mbind res_bind].
    rewrite IH; [|done|].
    + f_equal. cbn [w_asleep set_asleep]. rewrite set_asleep_twice. f_equal. apply set_eq. intros y.
      rewrite !elem_of_union, !elem_lst, elem_of_cons, elem_of_singleton. tauto.
    + intros y Hy. cbn. rewrite elem_of_union, elem_of_singleton. intros [->|Hn]; [done|].
      by apply (Hna y); [apply elem_of_list_further|].
Qed.

Lemma put_to_sleep_ok s m w h il : inv s m w → w_isl w !! h = Some il → h ∉ w_asleep w → calm w il = true →
  ∃ A, put_to_sleep w h = Ok (set_asleep w A) ∧ slp (set_asleep w A) ∧
    (∀ J, is_island w J → (J ∈ A ↔ J = h ∨ J ∈ w_asleep w)).
Proof.
  intros IV Hil Hh Hcalm. pose proof (iv_store _ _ _ IV) as ST. pose proof (iv_part _ _ _ IV) as P. unfold put_to_sleep.
  rewrite emplace_asleep_ok by done. cbn [mbind res_bind w_isl set_asleep].
  rewrite Hil. cbn [opt_res mbind res_bind].
  assert (Hmn : ∀ y, member w h y ↔ y ∈ il_nodes il).
  { intros y. split; [intros (? & ? & ?); by simplify_eq|by exists il]. }
  assert (Hme : ∀ y, emember w h y ↔ y ∈ il_edges il).
  { intros y. split; [intros (? & ? & ?); by simplify_eq|by exists il]. }
  destruct (st_nd _ _ ST h il Hil) as [N1 N2].
  assert (Hnh : ∀ y, y ∈ il_nodes il ∨ y ∈ il_edges il → y ≠ h).
  { intros y [Hy|Hy] ->.
    - apply Hmn, (pt_nlive _ _ _ _ P), (st_node _ _ ST) in Hy as (_ & _ & Hn). apply Hn. by eexists.
    - apply Hme, (pt_elive _ _ _ _ P), (st_edge _ _ ST) in Hy as (_ & Hn). apply Hn. by eexists. }
  assert (Hawake : ∀ y, in_island w y h → y ∉ w_asleep w).
  { intros y Hy Ha. destruct (sl_up _ (iv_slp _ _ _ IV) y Ha) as [Hi|(K & HK & HKa)].
    - destruct (in_island_mem s m w y h IV Hy) as [[Hp _]|[Hk _]].
      + apply procedural_node, (st_node _ _ ST) in Hp. tauto.
      + apply (st_edge _ _ ST) in Hk. tauto.
    - unfold in_island in *. rewrite HK in Hy. by simplify_eq. }
  assert (Hslow : ∀ y, y ∈ il_nodes il → y ∉ w_fast w).
  { intros y Hy. unfold calm in Hcalm. apply andb_true_iff in Hcalm as [_ Hc]. rewrite forallb_forall in Hc.
    specialize (Hc y). rewrite bool_decide_eq_true in Hc. apply Hc. by apply elem_of_list_In. }
  destruct (fold_res_ind (λ w x, if decide (x ∈ w_proc w) then w ← emplace_asleep w x; Ok (set_fast w (w_fast w ∖ {[x]})) else Ok w)
    (λ l w', ∃ A, w' = set_asleep w A ∧ ∀ y, y ∈ A ↔ y = h ∨ y ∈ w_asleep w ∨ (y ∈ l ∧ procedural s y)) (reverse (il_nodes il))
    (set_asleep w ({[h]} ∪ w_asleep w))) as (w' & -> & A & -> & HA).
  { eexists. split; [done|]. intros y. rewrite elem_of_union, elem_of_singleton, elem_none. tauto. }
  { intros l1 x l2 w1 Hl (A & -> & HA).
    assert (Hx : x ∈ il_nodes il) by (apply elem_of_reverse; rewrite Hl, elem_of_app, elem_of_cons; tauto).
    cbn [w_proc set_asleep]. case_decide as Hp.
    - apply (st_proc _ _ ST) in Hp. rewrite emplace_asleep_ok.
      2:{ cbn [w_asleep set_asleep]. rewrite HA. intros [->|[Ha|[Ha _]]].
        - by apply (Hnh h); [left|].
        - apply (Hawake x); [|done]. apply (pt_node _ _ _ _ P); [done|]. by apply Hmn.
        - assert (NoDup (reverse (il_nodes il))) as Hnd by (by rewrite reverse_Permutation). rewrite Hl in Hnd.
          apply NoDup_app in Hnd as (_ & Hd & _). apply (Hd x Ha). apply elem_of_list_here. }
      cbn [mbind res_bind]. eexists. split; [done|]. exists ({[x]} ∪ A). split.
      + unfold set_asleep, set_fast. cbn. f_equal. apply set_eq. intros y. rewrite elem_of_difference, elem_of_singleton.
        split; [tauto|]. intros Hy. split; [done|]. intros ->. by apply (Hslow x).
      + intros y. rewrite elem_of_union, elem_of_singleton, HA, elem_snoc. destruct (decide (y = x)) as [->|]; tauto.
    - rewrite (st_proc _ _ ST) in Hp. eexists. split; [done|]. exists A. split; [done|]. intros y. rewrite HA, elem_snoc.
      destruct (decide (y = x)) as [->|]; tauto. }
  cbn [mbind res_bind]. rewrite emplace_list_ok.
  2:{ by rewrite reverse_Permutation. }
  2:{ intros k Hk. rewrite elem_of_reverse in Hk. cbn. rewrite HA. assert (is_edge s k) as Hke by (by apply (pt_elive _ _ _ _ P h), Hme).
      intros [->|[Ha|[_ Hp]]].
      - by apply (Hnh h); [right|].
      - apply (Hawake k); [|done]. apply (pt_edge _ _ _ _ P); [done|]. by apply Hme.
      - by apply (inv_sep _ _ _ IV k); [apply procedural_node|]. }
  cbn [w_asleep set_asleep]. rewrite set_asleep_twice. eexists. split; [done|].
  assert (HB : ∀ y, y ∈ lst (reverse (il_edges il)) ∪ A ↔ y = h ∨ y ∈ w_asleep w ∨ in_island w y h).
  { intros y. rewrite elem_of_union, elem_lst, elem_of_reverse, HA, elem_of_reverse. split.
    - intros [Hy|[?|[?|[Hy Hp]]]]; [|tauto|tauto|].
      + right. right. apply Hme in Hy. apply (pt_edge _ _ _ _ P); [by eapply (pt_elive _ _ _ _ P)|done].
      + right. right. apply (pt_node _ _ _ _ P); [done|]. by apply Hmn.
    - intros [?|[?|Hy]]; [tauto..|]. destruct (in_island_mem s m w y h IV Hy) as [[Hp Hm]|[Hk Hm]].
      + apply Hmn in Hm. tauto.
      + apply Hme in Hm. tauto. }
  split.
  - split; cbn.
    + intros y. rewrite HB. intros [->|[Hy|Hy]].
      * left. by eexists.
      * destruct (sl_up _ (iv_slp _ _ _ IV) y Hy) as [Hi|(K & HK & HKa)]; [by left|]. right. exists K. rewrite HB. tauto.
      * right. exists h. rewrite HB. tauto.
    + intros y K HK. rewrite !HB. intros [->|[Hy|Hy]]; [tauto|..].
      * right. left. by eapply (sl_down _ (iv_slp _ _ _ IV)).
      * exfalso. assert (is_island w K) as HKi by (by eapply in_island_island).
        destruct (in_island_mem s m w K h IV Hy) as [[Hp _]|[Hk _]].
        -- apply procedural_node, (st_node _ _ ST) in Hp. tauto.
        -- apply (st_edge _ _ ST) in Hk. tauto.
  - intros J HJ. rewrite HB. split; [|tauto]. intros [?|[?|HJh]]; [tauto..|]. exfalso.
    destruct (in_island_mem s m w J h IV HJh) as [[Hp _]|[Hk _]].
    + apply procedural_node, (st_node _ _ ST) in Hp. tauto.
    + apply (st_edge _ _ ST) in Hk. tauto.
Qed.

Definition contents (il : island) : list nat * list nat := (il_nodes il, il_edges il).
Lemma contents_same (I I' : gmap nat island) J : contents <$> I !! J = contents <$> I' !! J →
  (is_Some (I !! J) ↔ is_Some (I' !! J)) ∧
  (∀ y, (∃ il, I !! J = Some il ∧ y ∈ il_nodes il) ↔ (∃ il, I' !! J = Some il ∧ y ∈ il_nodes il)) ∧
  (∀ y, (∃ il, I !! J = Some il ∧ y ∈ il_edges il) ↔ (∃ il, I' !! J = Some il ∧ y ∈ il_edges il)).
Proof.
  destruct (I !! J) as [[a b c]|], (I' !! J) as [[a' b' c']|]; unfold contents; cbn; intros E; simplify_eq; (split; [|split]); try done.
  - intros y. split; intros (il & [= <-] & Hy); by eexists.
  - intros y. split; intros (il & [= <-] & Hy); by eexists.
Qed.
Lemma inv_isl_ext s m w I : inv s m w → (∀ J, contents <$> I !! J = contents <$> w_isl w !! J) → inv s m (set_isl w I).
Proof.
  intros [P ST SL R HS] HI.
  assert (Hi : ∀ J, is_island (set_isl w I) J ↔ is_island w J) by (intros J; apply (contents_same _ _ _ (HI J))).
  assert (Hm : ∀ J y, member (set_isl w I) J y ↔ member w J y) by (intros J; apply (contents_same _ _ _ (HI J))).
  assert (He : ∀ J y, emember (set_isl w I) J y ↔ emember w J y) by (intros J; apply (contents_same _ _ _ (HI J))).
  split; [destruct P; split|destruct ST; split|destruct SL; split|by eapply rel_same|done]; try done.
  - intros x h Hp. rewrite Hm. auto.
  - intros x h Hp. rewrite He. auto.
  - intros h x. rewrite Hm. eauto.
  - intros h x. rewrite He. eauto.
  - intros k h x. rewrite Hm. eauto.
  - intros h il. cbn. intros HJ. specialize (HI h). rewrite HJ in HI. destruct (w_isl w !! h) as [il'|] eqn:E; [|done].
    cbn in HI. injection HI as -> ->. by eapply st_nd.
  - intros h x is. rewrite Hm. apply st_mem.
  - intros x. rewrite Hi. apply st_valid.
  - intros x Hx. rewrite Hi. by apply st_node.
  - intros x Hx. rewrite Hi. by apply st_edge.
  - intros x. rewrite Hi. apply st_isl.
  - intros x Hx. rewrite Hi. by apply sl_up.
Qed.

Lemma calm_ext w w' il il' : w_fast w' = w_fast w → w_nosleep w' = w_nosleep w → il_nodes il' = il_nodes il → calm w' il' = calm w il.
Proof. intros H1 H2 H3. unfold calm. by rewrite H1, H2, H3. Qed.
Lemma set_isl_insert w h il : w_isl w !! h = Some il → set_isl w (<[h := il]> (w_isl w)) = w.
Proof. intros H. rewrite insert_id by done. by destruct w. Qed.

Lemma sleep_one_ok s m tts w h il : inv s m w → w_isl w !! h = Some il →
  ∃ A, sleep_one tts w h = Ok (set_asleep (set_isl w (<[h := Island (il_nodes il) (il_edges il) (stamp' tts w h il)]> (w_isl w))) A) ∧
    inv s m (set_asleep (set_isl w (<[h := Island (il_nodes il) (il_edges il) (stamp' tts w h il)]> (w_isl w))) A) ∧
    (∀ J, is_island w J → (J ∈ A ↔ J ∈ w_asleep w ∨ (J = h ∧ falls tts w il = true))).
Proof.
  intros IV Hil. set (I := <[h := _]> (w_isl w)).
  assert (IV1 : inv s m (set_isl w I)).
  { apply inv_isl_ext; [done|]. intros J. unfold I. destruct (decide (J = h)) as [->|HJ].
    - by rewrite lookup_insert, Hil.
    - by rewrite lookup_insert_ne. }
  assert (IV2 : inv s m (set_asleep (set_isl w I) (w_asleep w))).
  { apply inv_set_asleep; [done|]. apply IV1. }
  unfold sleep_one. rewrite Hil. cbn [opt_res mbind res_bind].
  destruct (decide (h ∈ w_asleep w)) as [Ha|Ha].
  { exists (w_asleep w). split_and!; [|done|].
    - f_equal. unfold I, stamp'. rewrite decide_True by done. destruct il as [a b c]. cbn [il_nodes il_edges il_sleep].
      rewrite set_isl_insert by done. by rewrite set_asleep_self.
    - intros J _. split; [tauto|]. intros [?|[-> _]]; done. }
  destruct (calm w il) eqn:Hc.
  - destruct (il_sleep il) as [t0|] eqn:Hs.
    + destruct (tts <? w_last w - t0)%Z eqn:Ht.
      * destruct (put_to_sleep_ok s m w h il IV Hil Ha Hc) as (A & -> & HA & HAi). cbn [mbind res_bind].
        exists A. split_and!.
        -- f_equal. unfold set_stamp. cbn [w_isl set_asleep]. rewrite Hil. unfold I, stamp'. rewrite decide_False, Hc, Hs, Ht by done. done.
        -- apply inv_set_asleep; [done|]. destruct HA as [Q1 Q2]. split; [|exact Q2]. intros x Hx. destruct (Q1 x Hx) as [[il' Hi]|?]; [|by right].
           left. unfold is_island. cbn. unfold I. destruct (decide (x = h)) as [->|]; [rewrite lookup_insert|rewrite lookup_insert_ne by done]; by eexists.
        -- intros J HJ. rewrite (HAi J HJ). unfold falls. rewrite Hc, Hs, Ht. cbn. tauto.
      * exists (w_asleep w). split_and!; [|done|].
        -- f_equal. unfold I, stamp'. rewrite decide_False, Hc, Hs, Ht by done. destruct il as [a b c]. cbn [il_nodes il_edges il_sleep] in *.
           subst c. rewrite set_isl_insert by done. by rewrite set_asleep_self.
        -- intros J _. unfold falls. rewrite Hc, Hs, Ht. cbn. split; [tauto|]. intros [?|[_ ?]]; done.
    + exists (w_asleep w). split_and!; [|done|].
      * f_equal. unfold I, stamp', set_stamp. rewrite Hil, decide_False, Hc, Hs by done. done.
      * intros J _. unfold falls. rewrite Hc, Hs. cbn. split; [tauto|]. intros [?|[_ ?]]; done.
  - exists (w_asleep w). split_and!; [|done|].
    + f_equal. unfold I, stamp', set_stamp. rewrite Hil, decide_False, Hc by done. done.
    + intros J _. unfold falls. rewrite Hc. cbn. split; [tauto|]. intros [?|[_ ?]]; done.
Qed.

Lemma sleep_islands_ok s m tts w : inv s m w →
  ∃ I A, sleep_islands tts w = Ok (set_asleep (set_isl w I) A) ∧ inv s m (set_asleep (set_isl w I) A) ∧
    (∀ J, I !! J = (λ il, Island (il_nodes il) (il_edges il) (stamp' tts w J il)) <$> w_isl w !! J) ∧
    (∀ J il, w_isl w !! J = Some il → (J ∈ A ↔ J ∈ w_asleep w ∨ falls tts w il = true)).
Proof.
  intros IV. unfold sleep_islands. set (l := (map_to_list (w_isl w)).*1).
  assert (Hnd : NoDup l) by (apply NoDup_fst_map_to_list).
  assert (Hl : ∀ J, J ∈ l ↔ is_island w J).
  { intros J. unfold l. rewrite elem_of_list_fmap. split.
    - intros ([J' il] & -> & H). apply elem_of_map_to_list in H. by eexists.
    - intros [il H]. exists (J, il). split; [done|]. by apply elem_of_map_to_list. }
  destruct (fold_res_ind (sleep_one tts) (λ l1 w1, ∃ I A, w1 = set_asleep (set_isl w I) A ∧ inv s m w1 ∧
    (∀ J, I !! J = (λ il, if decide (J ∈ l1) then Island (il_nodes il) (il_edges il) (stamp' tts w J il) else il) <$> w_isl w !! J) ∧
    (∀ J il, w_isl w !! J = Some il → (J ∈ A ↔ J ∈ w_asleep w ∨ (J ∈ l1 ∧ falls tts w il = true)))) l w)
    as (w' & -> & I & A & -> & IV' & HI & HA).
  - exists (w_isl w), (w_asleep w). split_and!; [by destruct w|done|..].
    + intros J. destruct (w_isl w !! J); [|done]. cbn. rewrite decide_False; [done|]. apply not_elem_of_nil.
    + intros J il _. rewrite elem_none. tauto.
  - intros l1 x l2 w1 Hl1 (I & A & -> & IV1 & HI & HA).
    assert (Hx : x ∈ l) by (rewrite Hl1, elem_of_app, elem_of_cons; tauto).
    assert (Hx1 : x ∉ l1).
    { rewrite Hl1 in Hnd. apply NoDup_app in Hnd as (_ & Hd & _). intros Hy. apply (Hd x Hy). apply elem_of_list_here. }
    apply Hl in Hx as [il Hil].
    assert (Hil1 : I !! x = Some il) by (by rewrite HI, Hil; cbn; rewrite decide_False).
    destruct (sleep_one_ok s m tts _ x il IV1 Hil1) as (A' & -> & IV2 & HA'). cbn [w_isl set_asleep set_isl] in *.
    assert (Hst : stamp' tts (set_asleep (set_isl w I) A) x il = stamp' tts w x il).
    { unfold stamp'. cbn [w_asleep set_asleep w_last set_isl].
      rewrite (decide_ext (x ∈ A) (x ∈ w_asleep w)); [done|]. rewrite (HA x il Hil). tauto. }
    assert (Hfl : falls tts (set_asleep (set_isl w I) A) il = falls tts w il) by done.
    rewrite Hst in IV2 |- *. eexists. split; [done|].
    exists (<[x := Island (il_nodes il) (il_edges il) (stamp' tts w x il)]> I), A'. split_and!; [done|done|..].
    + intros J. destruct (decide (J = x)) as [->|HJ].
      * rewrite lookup_insert, Hil. cbn. rewrite decide_True; [done|]. apply elem_snoc. by right.
      * rewrite lookup_insert_ne, HI by done. destruct (w_isl w !! J); [|done]. cbn. f_equal. apply decide_ext. rewrite elem_snoc. tauto.
    + intros J il' HJ. rewrite HA'; [|unfold is_island; cbn; rewrite HI, HJ; by eexists]. cbn [w_asleep set_asleep].
      rewrite (HA J il' HJ), elem_snoc, Hfl. split.
      * intros [[?|[? ?]]|[-> ?]]; [tauto|tauto|]. simplify_eq. tauto.
      * intros [?|[[?| ->] ?]]; [tauto|tauto|]. simplify_eq. tauto.
  - exists I, A. split_and!; [done|done|..].
    + intros J. rewrite HI. destruct (w_isl w !! J) eqn:E; [|done]. cbn. rewrite decide_True; [done|]. apply Hl. by eexists.
    + intros J il HJ. rewrite (HA J il HJ). assert (J ∈ l) by (apply Hl; by eexists). tauto.
Qed.

(** ** The update *)
Record updated (tts : Z) (s : sgraph) (m : mgraph) (w w' : world) (t : Z) : Prop := {
  up_inv : inv s m w';
  up_queue : queue s w';
  up_complete : complete s w';
  up_empty : w_split w' = [] ∧ w_wake w' = [];
  up_misc : w_fast w' = w_fast w ∧ w_nosleep w' = w_nosleep w ∧ w_last w' = t;
  up_tight : w_split w = [] ∨ no_null_edge s w → (∀ J, J ∉ w_split w → tight s w J) → ∀ J, tight s w' J;
  (** the state in which the islands were checked for sleep *)
  up_sleep : ∃ w2, (∀ h il, w_isl w2 !! h = Some il → il_sleep il = None ∨ ∃ il0, w_isl w !! h = Some il0 ∧ il_sleep il = il_sleep il0) ∧
    w_asleep w2 ⊆ w_asleep w ∧ (∀ h, h ∈ w_wake w → is_island w h → h ∉ w_asleep w2) ∧
    w_fast w2 = w_fast w ∧ w_nosleep w2 = w_nosleep w ∧ w_last w2 = w_last w ∧
    (∀ J, w_isl w' !! J = (λ il, Island (il_nodes il) (il_edges il) (stamp' tts w2 J il)) <$> w_isl w2 !! J) ∧
    (∀ J il, w_isl w2 !! J = Some il → (J ∈ w_asleep w' ↔ J ∈ w_asleep w2 ∨ falls tts w2 il = true)) ∧
    (∀ x, procedural s x → needs s w x → x ∉ w_asleep w2) ∧
    (∀ x h, in_island w' x h → h ∈ w_asleep w2 → x ∈ w_asleep w2) ∧
    (∀ x h, in_island w x h → h ∈ w_wake w → x ∉ w_asleep w2)
}.
Lemma update_ok tts s m w t : inv s m w → queue s w → ∃ w', update tts w t = Ok w' ∧ updated tts s m w w' t.
Proof.
  intros IV Q. unfold update.
  destruct (wake_islands_ok s m w IV) as (A0 & -> & IV0 & Hsub & Hwk). cbn [mbind res_bind].
  set (w0 := set_wake (set_asleep w A0) []) in *.
  assert (Q0 : queue s w0) by (by destruct Q; split).
  destruct (init_new_ok s m w0 IV0 Q0) as (w1 & -> & IV1 & C1 & K1 & S1 & W1 & T1). cbn [mbind res_bind].
  destruct (split_islands_ok s m w1 IV1 C1) as (w2 & -> & IV2 & C2 & K2 & S2 & T2). cbn [mbind res_bind].
  destruct (sleep_islands_ok s m tts w2 IV2) as (I & A & -> & IV3 & HI & HA). cbn [mbind res_bind].
  eexists. split; [done|].
  assert (Hmem : ∀ J y, member (set_asleep (set_isl w2 I) A) J y ↔ member w2 J y).
  { intros J. apply (contents_same I (w_isl w2) J). rewrite HI. by destruct (w_isl w2 !! J). }
  split.
  - destruct IV3 as [P [] [] R HS]. split; [done|by split|by split|by eapply rel_same|done].
  - assert (Hnn : w_newn w2 = [] ∧ w_newe w2 = []).
    { rewrite (sm_newn _ _ S2), (sm_newe _ _ S2). cbn. by rewrite (sm_newn _ _ S1), (sm_newe _ _ S1). }
    destruct Hnn as [Hn1 Hn2]. split; cbn.
    + intros x. rewrite Hn1. by intros ?%elem_of_nil.
    + intros x. rewrite Hn2. by intros ?%elem_of_nil.
    + intros x Hp Hn. exfalso. apply (C2 x Hp). by left.
    + intros k x Hk Hp Hn. exfalso. apply (C2 x Hp). right. by exists k.
  - exact C2.
  - cbn. rewrite (sm_split _ _ S2), (sm_wake _ _ S2). cbn. by rewrite (sm_wake _ _ S1).
  - cbn. split_and!; [|..|done].
    + by rewrite (kp_fast _ _ K2), (kp_fast _ _ K1).
    + by rewrite (kp_nosleep _ _ K2), (kp_nosleep _ _ K1).
  - intros Hf Ht J x y Hx Hy. apply Hmem in Hx, Hy. eapply (T2 (T1 Hf Ht) J); done.
  - pose proof (keeps_trans _ _ _ K1 K2) as K. exists w2. split_and!.
    + intros h il Hil. exact (kp_stamp _ _ K h il Hil).
    + intros x Hx. apply Hsub. by apply (kp_asleep _ _ K) in Hx.
    + intros h Hh Hi Hx. apply (Hwk h Hh Hi). by apply (kp_asleep _ _ K) in Hx.
    + apply K.
    + apply K.
    + apply K.
    + exact HI.
    + exact HA.
    + intros x Hp Hn Hs%(kp_asleep _ _ K2). by apply (W1 x Hp).
    + intros x h Hx. by apply (sl_down _ (iv_slp _ _ _ IV2)).
    + intros x h Hx Hh Hs%(kp_asleep _ _ K). assert (HC : in_island w0 x h) by done.
      assert (is_island w h) as Hi by (by eapply (in_island_island s m w x h)).
      destruct (sl_up _ (iv_slp _ _ _ IV0) x Hs) as [Hix|(h' & Hx' & Hh')].
      * destruct (in_island_mem s m w x h IV Hx) as [[Hp _]|[Hk _]].
        -- by destruct (st_node _ _ (iv_store _ _ _ IV) x (procedural_node _ _ Hp)) as (_ & _ & ?).
        -- by destruct (st_edge _ _ (iv_store _ _ _ IV) x Hk) as (_ & ?).
      * unfold in_island in *. rewrite HC in Hx'. injection Hx' as <-. by apply (Hwk h).
Qed.

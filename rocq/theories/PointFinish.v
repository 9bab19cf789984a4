(** process_collision: placing the remaining result points, and the whole function. *)
From Verif Require Import Outcome BoxModel PointModel PointProofs PointSlot PointProcess.

Section finish.
Context {V Sc X : Type} (G : geo V Sc) (nz : rpoint V X → bool) (dflt : rpoint V X).
Notation preg := (preg V X).
Notation rpoint := (rpoint V X).
Notation entry := (nat * (rpoint * nat))%type.
Notation astate := (gmap nat (list entry)).
Notation pst := (@pst V X).
Notation slot := (@slot V X).

Lemma del_ids_filter (xs : list nat) (l : list entry) : del_ids xs l = filter (λ e, e.1 ∉ xs) l.
Proof.
  revert xs. induction l as [|e l IH]; intros xs.
  - clear. induction xs as [|x xs IH]; [done|]. simpl. exact IH.
  - change (e :: l) with ([e] ++ l). rewrite del_ids_app, filter_app. f_equal; [|apply IH].
    clear. induction xs as [|x xs IH]; [done|]. simpl. unfold del_id. rewrite !filter_cons.
    destruct (decide (e.1 = x)) as [Hx|Hx].
    + rewrite (decide_False (P := e.1 ≠ x)) by tauto. rewrite filter_nil. rewrite decide_False.
      * clear. induction xs as [|y xs IH]; [done|]. exact IH.
      * rewrite not_elem_of_cons. tauto.
    + rewrite (decide_True (P := e.1 ≠ x)) by tauto. rewrite filter_nil. rewrite IH, filter_cons.
      destruct (decide (e.1 ∉ xs)); [rewrite decide_True|rewrite decide_False]; try done; rewrite not_elem_of_cons; tauto.
Qed.

(** ** Filling the slots *)
Definition mk_slot (e : entry) : slot := Slot e.2.1 (Some e.1) INone.
Definition slots_of (ks : list entry) : list slot := (mk_slot <$> ks) ++ replicate (max_contacts - length ks) (slot0 dflt).
Lemma slots_of_store ks e : length ks < max_contacts →
  store (slots_of ks) (Some (length ks)) (mk_slot e) = Ok (slots_of (ks ++ [e])).
Proof.
  intros Hk. unfold store, slots_of. rewrite decide_True by (rewrite app_length, fmap_length, replicate_length; lia).
  f_equal. rewrite app_length. simpl. replace (max_contacts - length ks) with (S (max_contacts - (length ks + 1))) by lia.
  simpl. rewrite fmap_app. simpl. rewrite <- (assoc_L (++)). simpl.
  rewrite insert_app_r_alt by (by rewrite fmap_length). rewrite fmap_length, Nat.sub_diag. done.
Qed.

Lemma fill_spec A f r m removed todo : ∀ pre ks fuel,
  repr A f r → A !! m = Some (pre ++ todo) → length ks + length (filter (λ e : entry, e.1 ∉ removed) todo) ≤ max_contacts →
  length todo ≤ fuel →
  for_each fuel (λ _ e, c ← opt_res (pr_cp r !! e); Ok (cp_next c)) (fill_slot removed r) (slots_of ks, length ks) (fst <$> head todo) =
  Ok (slots_of (ks ++ filter (λ e : entry, e.1 ∉ removed) todo), length (ks ++ filter (λ e : entry, e.1 ∉ removed) todo)).
Proof.
  induction todo as [|[x d] todo IH]; intros pre ks fuel HR HA Hk Hf.
  - rewrite filter_nil, app_nil_r. destruct fuel; done.
  - destruct fuel as [|fuel]; [simpl in Hf; lia|]. simpl in Hf.
    assert (Hget : pr_cp r !! x = Some (CP m (fst <$> head todo) d.1 d.2)).
    { rewrite (rp_get _ _ _ HR m (pre ++ (x, d) :: todo) (length pre) x d HA) by (by rewrite lookup_app_r, Nat.sub_diag).
      rewrite lookup_app_r by lia. replace (S (length pre) - length pre) with 1 by lia. simpl. by destruct todo. }
    assert (HA' : A !! m = Some ((pre ++ [(x, d)]) ++ todo)) by (by rewrite <- (assoc_L (++))).
    change (fst <$> head ((x, d) :: todo)) with (Some x). cbn [for_each]. rewrite Hget. cbn [opt_res mbind res_bind cp_next].
    rewrite filter_cons. destruct (decide (x ∈ removed)) as [Hx|Hx].
    + rewrite (decide_False (P := (x, d).1 ∉ removed)) by tauto.
      assert (Hfs : fill_slot removed r (slots_of ks, length ks) x = Ok (slots_of ks, length ks)) by (unfold fill_slot; by rewrite decide_True).
      rewrite Hfs. cbn [mbind res_bind].
      rewrite (IH _ ks fuel HR HA'); [done| |lia]. rewrite filter_cons_False in Hk by tauto. done.
    + rewrite (decide_True (P := (x, d).1 ∉ removed)) by done. rewrite filter_cons_True in Hk by done. simpl in Hk.
      assert (Hfs : fill_slot removed r (slots_of ks, length ks) x = Ok (slots_of (ks ++ [(x, d)]), length (ks ++ [(x, d)]))).
      { unfold fill_slot. rewrite decide_False by done. rewrite Hget. cbn [opt_res mbind res_bind cp_pt fst snd].
        change (Slot d.1 (Some x) INone) with (mk_slot (x, d)). rewrite slots_of_store by lia.
        cbn [mbind res_bind]. do 2 f_equal. rewrite app_length. simpl. lia. }
      rewrite Hfs. cbn [mbind res_bind].
      rewrite (IH _ (ks ++ [(x, d)]) fuel HR HA'); [|rewrite app_length; simpl; lia|lia].
      by rewrite <- (assoc_L (++)).
Qed.

(** ** Placing *)
Record slots_ok (ks : list entry) (src : nat → option nat) (result : list rpoint) (mg0 : list bool) (slots : list slot) (num : nat) : Prop := {
  so_len : length slots = max_contacts;
  so_lo : length ks ≤ num;
  so_hi : num ≤ max_contacts;
  so_ent i s : slots !! i = Some s → i < num → s_ent s = fst <$> ks !! i;
  so_rest i : num ≤ i < max_contacts → slots !! i = Some (slot0 dflt);
  so_kept i s e : slots !! i = Some s → ks !! i = Some e → s_type s ≠ IAppend ∧ (s_type s = INone → s_pt s = e.2.1);
  so_new i s : slots !! i = Some s → length ks ≤ i < num → s_type s ≠ INone;
  so_src i s : slots !! i = Some s → i < num → s_type s ≠ INone →
    ∃ j, src i = Some j ∧ result !! j = Some (s_pt s) ∧ mg0 !! j = Some false;
  so_inj i1 i2 j : i1 < num → i2 < num → src i1 = Some j → src i2 = Some j → i1 = i2
}.

Lemma place_spec ks src result mg0 slots num p j :
  finite G → slots_ok ks src result mg0 slots num → result !! j = Some p → mg0 !! j = Some false →
  (∀ i, i < num → src i ≠ Some j) →
  ∃ slots' num' src', place G (slots, num) p = Ok (slots', num') ∧ slots_ok ks src' result mg0 slots' num' ∧
    (∀ i j', i < num' → src' i = Some j' → j' = j ∨ (i < num ∧ src i = Some j')).
Proof.
  intros HF HS Hj Hmg Hfresh. unfold place. cbn [fst snd].
  destruct (find_slot_safe G (s_pt <$> slots) num p HF) as (t & i & n & -> & Hs);
    [rewrite fmap_length; apply HS|apply HS|].
  cbn [mbind res_bind]. destruct (decide (t = INone)) as [->|Ht].
  { simpl in Hs. subst n. exists slots, num, src. split_and!; [done|done|]. intros. by right. }
  cbn [opt_res mbind res_bind].
  assert (Hi : i < max_contacts ∧ i ≤ num ∧ num ≤ n ∧ n ≤ max_contacts ∧ i < n ∧ (t = IAppend ↔ i = num) ∧ (n = num ∨ n = S num ∧ i = num) ∧ (t = IAppend → n = S num)).
  { pose proof (so_hi _ _ _ _ _ _ HS). destruct t; simpl in Hs; [done|..]; destruct_and?; split_and!; try lia; try (split; [done|lia]); try (split; lia); done. }
  destruct Hi as (Hi4 & Hin & Hnn & Hn4 & Hi & Happ & Hn & Hn').
  destruct (lookup_lt_is_Some_2 slots i) as [o Ho]; [rewrite (so_len _ _ _ _ _ _ HS); lia|]. rewrite Ho. cbn [opt_res mbind res_bind].
  set (src' := λ i', if decide (i' = i) then Some j else src i').
  exists (<[i := Slot p (s_ent o) t]> slots), n, src'. split; [done|].
  assert (Hlk : ∀ i', <[i := Slot p (s_ent o) t]> slots !! i' = if decide (i' = i) then Some (Slot p (s_ent o) t) else slots !! i').
  { intros i'. destruct (decide (i' = i)) as [->|]; [apply list_lookup_insert; rewrite (so_len _ _ _ _ _ _ HS); lia|by apply list_lookup_insert_ne]. }
  split; [constructor|].
  - rewrite insert_length. apply HS.
  - pose proof (so_lo _ _ _ _ _ _ HS). lia.
  - done.
  - intros i' s. rewrite Hlk. intros H Hlt. case_decide.
    + injection H as <-. subst i'. simpl. destruct (decide (i < num)); [by eapply (so_ent _ _ _ _ _ _ HS)|].
      assert (i = num) as -> by lia. rewrite (so_rest _ _ _ _ _ _ HS) in Ho by lia. injection Ho as <-. simpl.
      rewrite lookup_ge_None_2; [done|]. apply HS.
    + apply (so_ent _ _ _ _ _ _ HS _ _ H). lia.
  - intros i' Hi'. rewrite Hlk, decide_False by lia. apply (so_rest _ _ _ _ _ _ HS). lia.
  - intros i' s e. rewrite Hlk. intros H He. case_decide; [|by eapply (so_kept _ _ _ _ _ _ HS)].
    injection H as <-. subst i'. simpl. split; [|done]. intros E. apply Happ in E. subst i.
    apply lookup_lt_Some in He. pose proof (so_lo _ _ _ _ _ _ HS). lia.
  - intros i' s. rewrite Hlk. intros H Hi'. case_decide; [by injection H as <-|]. apply (so_new _ _ _ _ _ _ HS _ _ H). lia.
  - intros i' s. rewrite Hlk. unfold src'. intros H Hlt Hty. case_decide.
    + injection H as <-. simpl. eauto.
    + apply (so_src _ _ _ _ _ _ HS _ _ H); [lia|done].
  - intros i1 i2 j' H1 H2. unfold src'. case_decide; case_decide; subst; [done|..].
    + intros [= <-] E. exfalso. apply (Hfresh i2); [lia|done].
    + intros E [= <-]. exfalso. apply (Hfresh i1); [lia|done].
    + apply (so_inj _ _ _ _ _ _ HS); lia.
  - intros i' j' Hi'. unfold src'. case_decide; [intros [= <-]; by left|]. intros. right. split; [lia|done].
Qed.

Lemma place_all_spec ks result mg0 mg rest : ∀ pre src slots num,
  finite G → result = pre ++ rest → length mg0 = max_contacts → length mg = max_contacts → length result ≤ max_contacts →
  (∀ j, mg !! j = Some false → mg0 !! j = Some false) →
  slots_ok ks src result mg0 slots num →
  (∀ i j, i < num → src i = Some j → length pre ≤ j → mg !! j = Some true) →
  ∃ slots' num' src', place_all G (drop (length pre) mg) rest (slots, num) = Ok (slots', num') ∧ slots_ok ks src' result mg0 slots' num'.
Proof.
  induction rest as [|p rest IH]; intros pre src slots num HF Hres Hl0 Hl Hr Hmg HS Hsrc.
  { simpl. eauto. }
  assert (Hlen : length pre < length mg) by (rewrite Hres, app_length in Hr; simpl in Hr; lia).
  destruct (lookup_lt_is_Some_2 mg (length pre) Hlen) as [b Hb].
  rewrite (drop_S _ b) by done. cbn [place_all head tail opt_res mbind res_bind].
  assert (Hres' : result = (pre ++ [p]) ++ rest) by (by rewrite <- (assoc_L (++))).
  assert (Hlp : length (pre ++ [p]) = S (length pre)) by (rewrite app_length; simpl; lia).
  destruct b; cbn [mbind res_bind].
  - rewrite <- Hlp. apply (IH _ src); try done. rewrite Hlp. intros i j Hi Hj Hle. apply (Hsrc i j Hi Hj). lia.
  - destruct (place_spec ks src result mg0 slots num p (length pre) HF HS) as (slots' & num' & src' & -> & HS' & Hnew).
    + by rewrite Hres, lookup_app_r, Nat.sub_diag by lia.
    + by apply Hmg.
    + intros i Hi Hj. pose proof (Hsrc i _ Hi Hj ltac:(lia)). congruence.
    + cbn [mbind res_bind]. rewrite <- Hlp. apply (IH _ src'); try done. rewrite Hlp. intros i j Hi Hj Hle.
      destruct (Hnew i j Hi Hj) as [->|[? ?]]; [lia|]. apply (Hsrc i j); [done|done|lia].
Qed.

(** ** Committing *)
Definition upd_pt (x : nat) (p : rpoint) (l : list entry) : list entry :=
  (λ e, if decide (e.1 = x) then (x, (p, e.2.2)) else e) <$> l.
Definition a_commit (a : list entry * list rpoint * list nat) (s : slot) : list entry * list rpoint * list nat :=
  let '(l, news, dels) := a in
  match s_type s, s_ent s with
  | INone, _ => a
  | ISimilar, Some e => (upd_pt e (s_pt s) l, news, dels)
  | IReplace, Some e => (l, news ++ [s_pt s], dels ++ [e])
  | _, _ => (l, news ++ [s_pt s], dels)
  end.
Lemma upd_pt_upd x p0 k p (l : list entry) : NoDup l.*1 → (x, (p0, k)) ∈ l → upd_pt x p l = upd_id x (p, k) l.
Proof.
  intros Hn Hx. apply list_eq. intros i. unfold upd_pt, upd_id. rewrite !list_lookup_fmap.
  destruct (l !! i) as [e|] eqn:E; [|done]. simpl. case_decide as Hd; [|done].
  apply elem_of_list_lookup in Hx as (j & Hj). assert (i = j) as -> by (eapply NoDup_ids_inj; [exact Hn|exact E|exact Hj|done]).
  rewrite E in Hj. injection Hj as ->. done.
Qed.

Lemma commit_spec par m A f0 ss : ∀ l s,
  prel par m A f0 l s →
  NoDup (omap s_ent ss) → (∀ e, e ∈ omap s_ent ss → e ∈ l.*1 ∧ e ∉ ps_del s) →
  length (ps_new s) + length (del_ids (ps_del s) l) + length (filter (λ x, s_ent x = None) ss) ≤ max_contacts →
  (∀ x, x ∈ ss → s_type x = IAppend → s_ent x = None) →
  (∀ x, x ∈ ss → s_type x ≠ INone → nz (s_pt x) = true) →
  ∃ s' l' news' dels', foldl a_commit (l, ps_new s, ps_del s) ss = (l', news', dels') ∧
    commit_all nz par m s ss = Ok s' ∧ prel par m A f0 l' s' ∧ ps_new s' = news' ∧ ps_del s' = dels' ∧
    length news' + length (del_ids dels' l') ≤ max_contacts.
Proof.
  induction ss as [|x ss IH]; intros l s HP Hnd Hent Hcnt Happ Hnz.
  { simpl in *. exists s, l, (ps_new s), (ps_del s). split_and!; try done. lia. }
  assert (Happ' : ∀ x, x ∈ ss → s_type x = IAppend → s_ent x = None) by (intros y Hy; apply Happ; by right).
  assert (Hnz' : ∀ x, x ∈ ss → s_type x ≠ INone → nz (s_pt x) = true) by (intros y Hy; apply Hnz; by right).
  specialize (Happ x ltac:(by left)). specialize (Hnz x ltac:(by left)).
  cbn [foldl commit_all]. destruct (s_ent x) as [e|] eqn:Ee.
  - assert (Hom : omap s_ent (x :: ss) = e :: omap s_ent ss) by (simpl; by rewrite Ee). rewrite Hom in *.
    apply NoDup_cons in Hnd as [Hne Hnd].
    destruct (Hent e ltac:(by left)) as [Hel Hed].
    assert (Hent' : ∀ e', e' ∈ omap s_ent ss → e' ∈ l.*1 ∧ e' ∉ ps_del s) by (intros e' He'; apply Hent; by right).
    rewrite filter_cons_False in Hcnt by (by rewrite Ee).
    unfold a_commit at 2, commit. rewrite Ee. destruct (s_type x) eqn:Et.
    + cbn [mbind res_bind]. by apply IH.
    + apply elem_of_list_fmap in Hel as ([e0 [p0 k]] & E & Hel). simpl in E. subst e0.
      destruct (pl_read _ _ _ _ _ _ _ _ HP Hel Hed) as (nx & Hg). unfold merge. rewrite Hg. cbn [opt_res mbind res_bind cp_parent cp_next cp_life fst snd].
      pose proof (pl_set par m A f0 l s e (p0, k) (s_pt x, k) nx HP Hel Hed Hg) as HP'. cbn [fst snd] in HP'.
      rewrite (upd_pt_upd e p0 k) by (try done; apply HP).
      apply (IH _ (set_cp s e (CP m nx (s_pt x) k))); try done; cbn [ps_new ps_del set_cp].
      * intros e' He'. rewrite upd_id_ids. by apply Hent'.
      * rewrite del_ids_upd, upd_id_length by done. done.
    + destruct (pl_del par m A f0 l s e HP Hel Hed) as (s1 & -> & HP1 & Hn1 & Hd1). cbn [mbind res_bind].
      assert (Hc1 : S (length (del_ids (ps_del s ++ [e]) l)) = length (del_ids (ps_del s) l)).
      { rewrite del_ids_snoc. apply del_id_length; [apply del_ids_NoDup, HP|]. by apply del_ids_ids. }
      destruct (pl_new nz par m A f0 l s1 (s_pt x) HP1) as (s2 & -> & HP2 & Hn2 & Hd2);
        [rewrite Hn1, Hd1; lia|by apply Hnz|]. cbn [mbind res_bind].
      rewrite <- Hn1, <- Hd1, <- Hn2, <- Hd2. apply IH; try done.
      * intros e' He'. rewrite Hd2, Hd1. split; [by apply Hent'|]. rewrite elem_of_app, elem_of_list_singleton.
        intros [?| ->]; [by apply (Hent' e')|done].
      * rewrite Hd2, Hd1, Hn2, Hn1, app_length. simpl. lia.
    + specialize (Happ eq_refl). done.
  - assert (Hom : omap s_ent (x :: ss) = omap s_ent ss) by (simpl; by rewrite Ee). rewrite Hom in *.
    rewrite filter_cons_True in Hcnt by done. simpl in Hcnt.
    destruct (decide (s_type x = INone)) as [Et|Et].
    { unfold a_commit at 2, commit. rewrite Et. cbn [mbind res_bind]. apply IH; try done. lia. }
    assert (Ha : a_commit (l, ps_new s, ps_del s) x = (l, ps_new s ++ [s_pt x], ps_del s)).
    { unfold a_commit. rewrite Ee. by destruct (s_type x). }
    assert (Hc : commit nz par m s x = new_f nz par m s (s_pt x)).
    { unfold commit. rewrite Ee. by destruct (s_type x). }
    rewrite Ha, Hc.
    destruct (pl_new nz par m A f0 l s (s_pt x) HP) as (s2 & -> & HP2 & Hn2 & Hd2); [lia|by apply Hnz|]. cbn [mbind res_bind].
    rewrite <- Hn2, <- Hd2. apply IH; try done.
    + intros e' He'. rewrite Hd2. by apply Hent.
    + rewrite Hn2, Hd2, app_length. simpl. lia.
Qed.

(** ** The whole function on lists *)
Definition a_process (env : penv V Sc X) (l : list entry) (result : list rpoint) : res (list entry * list rpoint * list nat) :=
  let '(l1, mg, rm) := a_walk G env result l (replicate max_contacts false) in
  if forallb id (take (length result) mg) then Ok (l1, [], rm)
  else
    let kept := del_ids rm l1 in
    '(slots, num1, merged) ← (
      if decide (0 < length kept) then Ok (slots_of kept, length kept, mg)
      else p ← opt_res (head result);
           Ok (<[0 := Slot p None IAppend]> (replicate max_contacts (slot0 dflt)), 1, <[0 := true]> mg));
    '(slots2, num2) ← place_all G merged result (slots, num1);
    Ok (foldl a_commit (l1, [], rm) (take num2 slots2)).

Lemma slots_of_ok kept result mg : length kept ≤ max_contacts → length result ≤ max_contacts →
  slots_ok kept (λ _, None) result mg (slots_of kept) (length kept).
Proof.
  intros Hk Hr. unfold slots_of.
  assert (Hl : ∀ i s, i < length kept → ((mk_slot <$> kept) ++ replicate (max_contacts - length kept) (slot0 dflt)) !! i = Some s →
    ∃ e, kept !! i = Some e ∧ s = mk_slot e).
  { intros i s Hi. rewrite lookup_app_l by (by rewrite fmap_length). rewrite list_lookup_fmap. intros (e & He & ->)%fmap_Some. eauto. }
  constructor; try done.
  - rewrite app_length, fmap_length, replicate_length. lia.
  - intros i s H Hi. destruct (Hl i s Hi H) as (e & -> & ->). done.
  - intros i Hi. rewrite lookup_app_r by (rewrite fmap_length; lia). apply lookup_replicate. rewrite fmap_length. split; [done|lia].
  - intros i s e H He. destruct (Hl i s (lookup_lt_Some _ _ _ He) H) as (e' & He' & ->). simpl. split; [done|]. intros _. congruence.
  - intros i s H Hi. lia.
  - intros i s H Hi. destruct (Hl i s Hi H) as (e & _ & ->). done.
Qed.
Lemma slots_one_ok p result mg : length result ≤ max_contacts → head result = Some p → mg !! 0 = Some false →
  slots_ok [] (λ i, if decide (i = 0) then Some 0 else None) result mg (<[0 := Slot p None IAppend]> (replicate max_contacts (slot0 dflt))) 1.
Proof.
  intros Hr Hp Hmg. unfold max_contacts in *. constructor; try done.
  - simpl. lia.
  - unfold max_contacts. lia.
  - intros i s H Hi. assert (i = 0) as -> by lia. simpl in H. by injection H as <-.
  - intros i Hi. unfold max_contacts in Hi. destruct i as [|[|[|[|]]]]; try lia; done.
  - intros i s H Hi. simpl in Hi. assert (i = 0) as -> by lia. simpl in H. by injection H as <-.
  - intros i s H Hi. assert (i = 0) as -> by lia. simpl in H. injection H as <-. intros _. exists 0. simpl. destruct result; [done|]. simpl in *. by injection Hp as <-.
  - intros i1 i2 j H1 H2 _ _. lia.
Qed.

(** Which result point each existing point was merged with. *)
Lemma a_walk_src (env : penv V Sc X) result todo : ∀ merged l mg rm,
  a_walk G env result todo merged = (l, mg, rm) → NoDup todo.*1 →
  ∃ src : nat → option nat,
    (∀ j, merged !! j = Some true → mg !! j = Some true) ∧
    (∀ j, mg !! j = Some true → merged !! j = Some true ∨ ∃ x, x ∈ todo.*1 ∧ src x = Some j) ∧
    (∀ x p k, (x, (p, k)) ∈ todo → ∃ p', (x, (p', S k)) ∈ l ∧
       match src x with
       | Some j => result !! j = Some p' ∧ mg !! j = Some true ∧ merged !! j = Some false ∧ x ∉ rm
       | None => p' = p
       end) ∧
    (∀ x y j, src x = Some j → src y = Some j → x = y) ∧
    (∀ x, is_Some (src x) → x ∈ todo.*1) ∧
    (∀ x, x ∈ rm → ∃ p k, (x, (p, k)) ∈ todo ∧ e_sep env p = true) ∧
    (∀ x p k, (x, (p, k)) ∈ todo → src x = None → e_sep env p = true → x ∈ rm) ∧
    (∀ x p k j, (x, (p, k)) ∈ todo → src x = Some j → j = nearest G env p result) ∧
    (∀ x p k, (x, (p, k)) ∈ todo → nearest G env p result < length result → nearest G env p result < length merged →
       mg !! nearest G env p result = Some true).
Proof.
  induction todo as [|[x [p k]] todo IH]; intros merged l mg rm Hw Hnd.
  { simpl in Hw. injection Hw as <- <- <-. exists (λ _, None). split_and!; try done; try (by left); try (by intros ? ? ? ?%elem_of_nil); try (by intros ? ? ? ? ?%elem_of_nil); try (by intros ? ?%elem_of_nil).
    intros x [? ?]. done. }
  simpl in Hnd. apply NoDup_cons in Hnd as [Hx Hnd]. cbn [a_walk] in Hw. set (n := nearest G env p result) in *.
  destruct (decide (n < length result ∧ merged !! n = Some false)) as [[Hn Hm]|Hn].
  - destruct (a_walk G env result todo (<[n:=true]> merged)) as [[l0 mg0] rm0] eqn:Ew. injection Hw as <- <- <-.
    destruct (IH _ _ _ _ Ew Hnd) as (src & H1 & H2 & H3 & H4 & H5 & H6 & H7 & H8 & H9).
    assert (Hnl : n < length merged) by (by eapply lookup_lt_Some).
    assert (Hmn : mg0 !! n = Some true) by (by apply H1, list_lookup_insert).
    assert (Hsx : src x = None).
    { destruct (src x) eqn:E; [|done]. exfalso. apply Hx, H5. eauto. }
    assert (Hsn : ∀ y j, src y = Some j → merged !! j = Some false ∧ j ≠ n).
    { intros y j Hj. assert (Hy : y ∈ todo.*1) by (apply H5; eauto). apply elem_of_list_fmap in Hy as ([y' [py ky]] & -> & Hy).
      destruct (H3 _ _ _ Hy) as (p' & _ & H). simpl in Hj. rewrite Hj in H. destruct H as (_ & _ & H & _).
      destruct (decide (j = n)) as [->|]; [by rewrite list_lookup_insert in H|]. by rewrite list_lookup_insert_ne in H. }
    exists (λ y, if decide (y = x) then Some n else src y). split_and!.
    + intros j Hj. apply H1. destruct (decide (j = n)) as [->|]; [by apply list_lookup_insert|by rewrite list_lookup_insert_ne].
    + intros j Hj. destruct (H2 j Hj) as [H|(y & Hy & Hs)].
      * destruct (decide (j = n)) as [->|]; [|rewrite list_lookup_insert_ne in H by done; by left].
        right. exists x. split; [by left|]. by rewrite decide_True.
      * right. exists y. split; [by right|]. rewrite decide_False; [done|]. intros ->. done.
    + intros y py ky Hy. apply elem_of_cons in Hy as [[= -> -> ->]|Hy].
      * rewrite decide_True by done. destruct (lookup_lt_is_Some_2 result n Hn) as [q Hq]. rewrite Hq. simpl.
        exists q. split; [by left|]. split_and!; try done. intros Hr. apply H6 in Hr as (? & ? & Hr & _). apply Hx, elem_of_list_fmap. by eexists (_, _).
      * rewrite decide_False by (intros ->; apply Hx, elem_of_list_fmap; by eexists (_, _)).
        destruct (H3 _ _ _ Hy) as (p' & Hp' & H). exists p'. split; [by right|]. destruct (src y) as [j|] eqn:Es; [|done].
        destruct (Hsn _ _ Es). tauto.
    + intros y z j. case_decide; case_decide; subst; try done.
      * intros [= <-] Hz. by destruct (Hsn _ _ Hz).
      * intros Hy [= <-]. by destruct (Hsn _ _ Hy).
      * apply H4.
    + intros y. case_decide; [subst; by left|]. intros. right. by apply H5.
    + intros y Hy. destruct (H6 y Hy) as (py & ky & ? & ?). exists py, ky. split; [by right|done].
    + intros y py ky Hy. case_decide as Hyx; [done|]. apply elem_of_cons in Hy as [[= -> -> ->]|Hy]; [done|]. by eapply H7.
    + intros y py ky j Hy. case_decide as Hyx.
      * subst y. apply elem_of_cons in Hy as [[= -> ->]|Hy]; [by intros [= <-]|]. exfalso. apply Hx, elem_of_list_fmap. by eexists (_, _).
      * apply elem_of_cons in Hy as [[= -> -> ->]|Hy]; [done|]. by eapply H8.
    + intros y py ky Hy Hy1 Hy2. apply elem_of_cons in Hy as [[= -> -> ->]|Hy]; [done|]. eapply H9; [done|done|]. by rewrite insert_length.
  - destruct (a_walk G env result todo merged) as [[l0 mg0] rm0] eqn:Ew. injection Hw as <- <- Hrm.
    destruct (IH _ _ _ _ Ew Hnd) as (src & H1 & H2 & H3 & H4 & H5 & H6 & H7 & H8 & H9).
    assert (Hsx : src x = None).
    { destruct (src x) eqn:E; [|done]. exfalso. apply Hx, H5. eauto. }
    exists src. split_and!; try done.
    + intros j Hj. destruct (H2 j Hj) as [H|(y & Hy & Hs)]; [by left|]. right. exists y. split; [by right|done].
    + intros y py ky Hy. apply elem_of_cons in Hy as [[= -> -> ->]|Hy].
      * exists p. split; [by left|]. by rewrite Hsx.
      * assert (Hyx : y ≠ x) by (intros ->; apply Hx, elem_of_list_fmap; by eexists (_, _)).
        destruct (H3 _ _ _ Hy) as (p' & Hp' & H). exists p'. split; [by right|]. destruct (src y) as [j|] eqn:Es; [|done].
        destruct H as (? & ? & ? & Hr). split_and!; try done. subst rm. destruct (e_sep env p); [|done]. rewrite not_elem_of_cons. done.
    + intros y Hy. right. by apply H5.
    + intros y Hy. subst rm. destruct (e_sep env p) eqn:Es.
      * apply elem_of_cons in Hy as [->|Hy]; [exists p, k; split; [by left|done]|].
        destruct (H6 y Hy) as (py & ky & ? & ?). exists py, ky. split; [by right|done].
      * destruct (H6 y Hy) as (py & ky & ? & ?). exists py, ky. split; [by right|done].
    + intros y py ky Hy Hs Hsep. subst rm. apply elem_of_cons in Hy as [[= -> -> ->]|Hy]; [rewrite Hsep; by left|].
      specialize (H7 _ _ _ Hy Hs Hsep). destruct (e_sep env p); [by right|done].
    + intros y py ky j Hy Hs. apply elem_of_cons in Hy as [[= -> -> ->]|Hy]; [by rewrite Hsx in Hs|]. by eapply H8.
    + intros y py ky Hy Hy1 Hy2. apply elem_of_cons in Hy as [[= -> -> ->]|Hy]; [|by eapply H9].
      fold n in Hy1, Hy2 |- *. apply H1. destruct (lookup_lt_is_Some_2 merged n Hy2) as [b Hb]. destruct b; [done|]. exfalso. by apply Hn.
Qed.

Lemma omap_ents ks (ss : list slot) : (∀ i s, ss !! i = Some s → s_ent s = fst <$> (ks : list entry) !! i) →
  omap s_ent ss = take (length ss) ks.*1 ∧ length (filter (λ x, s_ent x = None) ss) = length ss - length ks.
Proof.
  revert ks. induction ss as [|s ss IH]; intros ks H; [done|].
  pose proof (H 0 s eq_refl) as H0. destruct ks as [|e ks].
  - assert (Hn : ∀ i s', ss !! i = Some s' → s_ent s' = fst <$> ([] : list entry) !! i) by (intros i s' Hi; by apply (H (S i))).
    destruct (IH [] Hn) as [H1 H2]. simpl in H0, H2. rewrite filter_cons_True by done.
    split; [|simpl; lia]. simpl. rewrite H0. etrans; [exact H1|]. simpl. by destruct (length ss).
  - assert (Hn : ∀ i s', ss !! i = Some s' → s_ent s' = fst <$> ks !! i) by (intros i s' Hi; by apply (H (S i))).
    destruct (IH ks Hn) as [H1 H2]. simpl in H0, H2. rewrite filter_cons_False by (by rewrite H0).
    split; [|simpl; lia]. simpl. rewrite H0. f_equal. exact H1.
Qed.

(** After the slots are chosen. *)
Lemma slots_commit par m A f0 l1 s1 src result mg slots num :
  prel par m A f0 l1 s1 → ps_new s1 = [] → Forall (λ p, nz p = true) result →
  slots_ok (del_ids (ps_del s1) l1) src result mg slots num →
  ∃ s' l' news' dels', foldl a_commit (l1, [], ps_del s1) (take num slots) = (l', news', dels') ∧
    commit_all nz par m s1 (take num slots) = Ok s' ∧ prel par m A f0 l' s' ∧ ps_new s' = news' ∧ ps_del s' = dels' ∧
    length news' + length (del_ids dels' l') ≤ max_contacts.
Proof.
  intros HP Hn1 Hnz HS. set (kept := del_ids (ps_del s1) l1) in *.
  assert (Htk : length (take num slots) = num) by (rewrite take_length, (so_len _ _ _ _ _ _ HS); pose proof (so_hi _ _ _ _ _ _ HS); lia).
  assert (Hlk : ∀ i s, take num slots !! i = Some s → slots !! i = Some s ∧ i < num).
  { intros i s Hi. pose proof (lookup_lt_Some _ _ _ Hi) as Hlt. rewrite Htk in Hlt. rewrite lookup_take in Hi by done. done. }
  destruct (omap_ents kept (take num slots)) as [Ho Hf].
  { intros i s Hi. destruct (Hlk _ _ Hi). by eapply (so_ent _ _ _ _ _ _ HS). }
  rewrite Htk in *.
  assert (Hok : omap s_ent (take num slots) = kept.*1).
  { rewrite Ho. apply take_ge. rewrite fmap_length. apply HS. }
  rewrite <- Hn1. apply (commit_spec par m A f0 (take num slots) l1 s1); try done.
  - rewrite Hok. apply del_ids_NoDup, HP.
  - intros e. rewrite Hok. apply del_ids_ids.
  - rewrite Hn1, Hf. simpl. fold kept. pose proof (so_lo _ _ _ _ _ _ HS). pose proof (so_hi _ _ _ _ _ _ HS). lia.
  - intros x (i & Hi)%elem_of_list_lookup Ht. destruct (Hlk _ _ Hi) as [Hi1 Hi2].
    rewrite (so_ent _ _ _ _ _ _ HS _ _ Hi1 Hi2). destruct (kept !! i) as [e|] eqn:E; [|done].
    destruct (so_kept _ _ _ _ _ _ HS _ _ _ Hi1 E). done.
  - intros x (i & Hi)%elem_of_list_lookup Ht. destruct (Hlk _ _ Hi) as [Hi1 Hi2].
    destruct (so_src _ _ _ _ _ _ HS _ _ Hi1 Hi2 Ht) as (j & _ & Hj & _).
    rewrite Forall_lookup in Hnz. by eapply Hnz.
Qed.

(** The result of the placement phase. *)
Lemma placed env l result l1 mg rm :
  finite G → NoDup l.*1 → length l ≤ max_contacts → length result ≤ max_contacts →
  a_walk G env result l (replicate max_contacts false) = (l1, mg, rm) →
  forallb id (take (length result) mg) = false →
  ∃ slots num merged slots2 num2 src,
    (if decide (0 < length (del_ids rm l1)) then Ok (slots_of (del_ids rm l1), length (del_ids rm l1), mg)
      else p ← opt_res (head result);
           Ok (<[0 := Slot p None IAppend]> (replicate max_contacts (slot0 dflt)), 1, <[0 := true]> mg)) = Ok (slots, num, merged) ∧
    place_all G merged result (slots, num) = Ok (slots2, num2) ∧
    slots_ok (del_ids rm l1) src result mg slots2 num2.
Proof.
  intros HF Hnd Hl Hr Hw Hall.
  assert (Hmg : length mg = max_contacts).
  { pose proof (a_walk_merged G env result l (replicate max_contacts false)) as H. rewrite Hw in H. exact H. }
  assert (Hk : length (del_ids rm l1) ≤ max_contacts).
  { rewrite del_ids_filter. etrans; [apply filter_length|].
    pose proof (a_walk_ids G env result l (replicate max_contacts false)) as H. rewrite Hw in H. simpl in H.
    rewrite <- (fmap_length fst l1), H, fmap_length. done. }
  destruct (decide (0 < length (del_ids rm l1))) as [Hpos|Hpos].
  - pose proof (slots_of_ok (del_ids rm l1) result mg Hk Hr) as HS.
    destruct (place_all_spec (del_ids rm l1) result mg mg result [] (λ _, None) (slots_of (del_ids rm l1)) (length (del_ids rm l1)) HF eq_refl Hmg Hmg Hr) as (slots2 & num2 & src & Hp & HS2); try done.
    simpl in Hp. rewrite drop_0 in Hp. do 6 eexists. split_and!; done.
  - destruct (del_ids rm l1) as [|] eqn:Ek; [|simpl in Hpos; lia].
    destruct result as [|p result]; [done|].
    assert (Hmg0 : mg !! 0 = Some false).
    { (* without kept points nothing was merged *)
      destruct (lookup_lt_is_Some_2 mg 0) as [b Hb]; [unfold max_contacts in Hmg; lia|]. destruct b; [|done]. exfalso.
      destruct (a_walk_src _ _ _ _ _ _ _ Hw Hnd) as (src & _ & H2 & H3 & _).
      destruct (H2 0 Hb) as [H|(x & Hx & Hs)].
      - apply lookup_replicate in H as [? _]. done.
      - apply elem_of_list_fmap in Hx as ([x' [px kx]] & -> & Hx). simpl in Hs. destruct (H3 _ _ _ Hx) as (p' & Hin & H). rewrite Hs in H.
        destruct H as (_ & _ & _ & Hrm). assert (Hk0 : x' ∈ (del_ids rm l1).*1).
        { apply del_ids_ids. split; [|done]. apply elem_of_list_fmap. by eexists (_, _). }
        rewrite Ek in Hk0. by apply elem_of_nil in Hk0. }
    pose proof (slots_one_ok p (p :: result) mg Hr eq_refl Hmg0) as HS.
    destruct (place_all_spec [] (p :: result) mg (<[0 := true]> mg) (p :: result) [] (λ i, if decide (i = 0) then Some 0 else None)
      (<[0 := Slot p None IAppend]> (replicate max_contacts (slot0 dflt))) 1 HF eq_refl Hmg) as (slots2 & num2 & src & Hp & HS2); try done.
    + by rewrite insert_length.
    + intros j. destruct (decide (j = 0)) as [->|]; [|by rewrite list_lookup_insert_ne].
      rewrite list_lookup_insert by (unfold max_contacts in Hmg; lia). done.
    + intros i j Hi. case_decide; [|done]. intros [= <-] _. apply list_lookup_insert. unfold max_contacts in Hmg; lia.
    + simpl in Hp. rewrite drop_0 in Hp. do 6 eexists. split_and!; [reflexivity|exact Hp|exact HS2].
Qed.
Lemma prel_init par m (A : astate) f0 r l : repr A f0 r → A !! m = Some l → prel par m A f0 l (PSt r [] []).
Proof.
  intros HR Hl. constructor; simpl.
  - replace (view par l f0 [] []) with l by (by destruct par).
    replace (vfresh (X:=X) (V:=V) par f0 []) with f0 by (destruct par; simpl; lia).
    by rewrite insert_id.
  - by eapply rp_nodup.
  - intros x Hx. by eapply rp_old.
  - intros x Hx. by apply elem_of_nil in Hx.
  - constructor.
Qed.

Lemma process_spec par env m (A : astate) f0 r l result :
  finite G → repr A f0 r → A !! m = Some l → length l ≤ max_contacts → length result ≤ max_contacts →
  Forall (λ p, nz p = true) result →
  ∃ s' l' news dels, a_process env l result = Ok (l', news, dels) ∧
    process G nz dflt par env m result (PSt r [] []) = Ok s' ∧
    prel par m A f0 l' s' ∧ ps_new s' = news ∧ ps_del s' = dels ∧
    length news + length (del_ids dels l') ≤ max_contacts.
Proof.
  intros HF HR Hl Hlen Hres Hnz. unfold process, a_process. cbn [ps_reg].
  rewrite (rp_man _ _ _ HR), Hl. cbn [fmap option_fmap option_map opt_res mbind res_bind].
  rewrite (bool_decide_true (length l ≤ max_contacts)) by done. cbn [assert_ mbind res_bind].
  destruct (a_walk G env result l (replicate max_contacts false)) as [[l1 mg] rm] eqn:Ew.
  destruct (walk_spec G par env m A f0 result l [] (PSt r [] []) (replicate max_contacts false) (size (pr_cp r)) l1 mg rm)
    as (s1 & Hfe & HP1 & Hn1 & Hd1); try done.
  { by apply prel_init. }
  { intros x Hx. by apply elem_of_nil in Hx. }
  { by eapply repr_cp_size. }
  change (del_ids (ps_del (PSt r [] [])) ([] ++ l)) with l in Hfe. cbn [ps_del app] in Hfe, Hd1, HP1. unfold nextf in Hfe.
  rewrite Hfe. cbn [mbind res_bind w_st w_merged w_num w_removed].
  rewrite (bool_decide_true (length result ≤ max_contacts)) by done. cbn [require_ mbind res_bind].
  assert (Hl1 : length l1 = length l).
  { pose proof (a_walk_ids G env result l (replicate max_contacts false)) as H. rewrite Ew in H. simpl in H.
    by rewrite <- (fmap_length fst l1), H, fmap_length. }
  destruct (forallb id (take (length result) mg)) eqn:Eall.
  { exists s1, l1, [], rm. split_and!; try done. simpl. rewrite del_ids_filter. etrans; [apply filter_length|]. lia. }
  destruct (placed env l result l1 mg rm HF) as (slots & num & merged & slots2 & num2 & src & Hs & Hp & HS); try done.
  { by eapply rp_nodup. }
  rewrite Hs. cbn [mbind res_bind]. rewrite Hp. cbn [mbind res_bind].
  pose proof (pl_repr _ _ _ _ _ _ HP1) as HR1. rewrite Hn1, Hd1 in HR1.
  rewrite (rp_man _ _ _ HR1), lookup_insert. cbn [fmap option_fmap option_map opt_res mbind res_bind].
  assert (Hview : filter (λ e : entry, e.1 ∉ rm) (view par l1 f0 [] rm) = del_ids rm l1).
  { rewrite del_ids_filter. destruct par; [done|]. simpl. rewrite del_ids_filter. rewrite list_filter_filter.
    apply list_filter_iff. intros. tauto. }
  assert (Hfill : (if decide (0 < length (del_ids rm l1)) then
       a ← for_each (size (pr_cp (ps_reg s1))) (λ (_ : list slot * nat) e, c ← opt_res (pr_cp (ps_reg s1) !! e); Ok (cp_next c))
             (fill_slot rm (ps_reg s1)) (replicate max_contacts (slot0 dflt), 0) (fst <$> head (view par l1 f0 [] rm));
       Ok (a.1, length (del_ids rm l1), mg)
     else p ← opt_res (head result);
        Ok (<[0:=Slot p None IAppend]> (replicate max_contacts (slot0 dflt)), 1, <[0:=true]> mg)) = Ok (slots, num, merged)).
  { rewrite <- Hs. destruct (decide (0 < length (del_ids rm l1))) as [Hpos|Hpos]; [|done].
    pose proof (fill_spec _ _ _ m rm (view par l1 f0 [] rm) [] [] (size (pr_cp (ps_reg s1))) HR1) as Hf.
    rewrite lookup_insert in Hf. specialize (Hf eq_refl). rewrite Hview in Hf.
    specialize (Hf ltac:(simpl; rewrite del_ids_filter; etrans; [apply filter_length|lia])).
    specialize (Hf ltac:(eapply repr_cp_size; [exact HR1|by rewrite lookup_insert])).
    unfold slots_of at 1 in Hf. cbn [fmap list_fmap length app] in Hf. rewrite Nat.sub_0_r in Hf. simpl app in Hf.
    rewrite Hf. done. }
  rewrite Hfill. cbn [mbind res_bind]. rewrite Hp. cbn [mbind res_bind].
  rewrite <- Hd1 in HS. destruct (slots_commit par m A f0 l1 s1 src result mg slots2 num2 HP1 Hn1 Hnz HS) as (s' & l' & news' & dels' & Hf & Hc & HP' & Hn' & Hd' & Hlen').
  rewrite Hd1 in Hf. exists s', l', news', dels'. rewrite Hf. split_and!; done.
Qed.
End finish.

(** Proofs about snapshots and create packets of clients. *)
From Verif Require Import Outcome GraphModel GraphSpec GraphHist GraphMain MapModel OwnModel OwnSpec OwnProofs.

(** ** The reach check *)
Lemma start_node_spec w m e i : wok w m → start_node w e = Ok i ↔ stands_for w m e i.
Proof.
  intros Hw. destruct (wok_hist _ _ Hw) as [cl Hh]. destruct (graph_refines_main _ _ _ Hh) as [Ob _].
  unfold start_node. destruct (w_edge w !! e) as [k|] eqn:Ek.
  - pose proof Ek as Hk. apply (wok_edge' w m _ _ Hw) in Hk as (a & b & Hk).
    destruct (ob_edge _ _ Ob _ _ _ _ Hk) as (_ & -> & _). cbn [mbind res_bind opt_res]. split.
    + intros [= <-]. by eapply sf_edge.
    + inversion 1 as [k' i' j Hk'|i' Hi|p r i' Hne Hnn Hc Hi]; subst.
      * assert (w_edge w !! e = Some k') by (apply (wok_edge' w m _ _ Hw); by eexists _, _). congruence.
      * exfalso. apply (wok_node' w m _ _ Hw) in Hi. by eapply (wok_disj _ _ Hw).
      * exfalso. eapply Hne. by eexists _, _.
  - assert (Hne : ∀ k, ¬ is_edge m k e).
    { intros k Hk. apply (wok_edge' w m _ _ Hw) in Hk. congruence. }
    destruct (w_node w !! e) as [j|] eqn:En.
    + pose proof En as Hj. apply (wok_node' w m _ _ Hw) in Hj. split.
      * intros [= <-]. by apply sf_node.
      * inversion 1 as [k' i' j' Hk'|i' Hi|p r i' _ Hnn Hc Hi]; subst.
        -- exfalso. eapply Hne. by eexists _, _.
        -- apply (wok_node' w m _ _ Hw) in Hi. congruence.
        -- exfalso. by eapply Hnn.
    + assert (Hnn : ∀ k, ¬ is_node m k e).
      { intros k Hk. apply (wok_node' w m _ _ Hw) in Hk. congruence. }
      split.
      * intros (v & Hv & Hm)%bind_ok. destruct (w_comps w !! (TChild, e)) as [v'|] eqn:Ec; [|done].
        injection Hv as ->. destruct v as [|[p|] r]; [done| |done].
        destruct (w_node w !! p) as [q|] eqn:Ep; [|done]. injection Hm as ->.
        eapply sf_child; [done|done|exact Ec|]. by apply (wok_node' w m _ _ Hw).
      * inversion 1 as [k' i' j' Hk'|i' Hi|p r i' _ _ Hc Hi]; subst.
        -- exfalso. eapply Hne. by eexists _, _.
        -- exfalso. by eapply Hnn.
        -- rewrite Hc. cbn [mbind res_bind opt_res]. apply (wok_node' w m _ _ Hw) in Hi. by rewrite Hi.
Qed.

Lemma stands_live w m e i : wok w m → stands_for w m e i → live_node m i.
Proof.
  intros Hw. destruct (wok_hist _ _ Hw) as [cl Hh]. destruct (hist_inv _ _ _ Hh) as [Hi _].
  inversion 1 as [k' i' j' Hk'|i' [nc Hn]|p r i' _ _ Hc [nc Hn]]; subst; try by eexists.
  apply (adjacent_live (w_graph w) m i j'); [done|]. exists k', e. by left.
Qed.
Lemma rpath_live w m s i : wok w m → live_node m s → rpath m (λ _, True) s i → live_node m i.
Proof.
  intros Hw Hs. destruct (wok_hist _ _ Hw) as [cl Hh]. destruct (hist_inv _ _ _ Hh) as [Hi _].
  induction 1 as [|j k Hj IH Hcj Hadj _]; [done|]. by eapply (adjacent_live (w_graph w) m) in Hadj as [_ ?].
Qed.

Lemma reach_fold w m c ns d o :
  wok w m → (∀ i, i ∈ ns → live_node m i) →
  ∃ d' o', foldl (reach_visit w c) (Ok (d, o)) ns = Ok (d', o') ∧
    (d' = true ↔ d = true ∨ ∃ i b, i ∈ ns ∧ is_node m i b ∧ owns w c b) ∧
    (o' = true ↔ o = true ∨ ∃ i b c', i ∈ ns ∧ is_node m i b ∧ owns w c' b ∧ c' ≠ c).
Proof.
  intros Hw. destruct (wok_hist _ _ Hw) as [cl Hh]. destruct (graph_refines_main _ _ _ Hh) as [Ob _].
  revert d o. induction ns as [|i ns IH]; intros d o Hl; cbn [foldl].
  { exists d, o. split; [done|]. split; (split; [auto|]); intros [?|H]; try done; destruct H as (? & ? & H);
      [destruct H as [H _]|destruct H as (? & H & _)]; by apply elem_of_nil in H. }
  destruct (Hl i) as [[b nc] Hi]; [left|].
  assert (Hb : is_node m i b) by by eexists.
  unfold reach_visit at 2. cbn [mbind res_bind]. rewrite (proj1 (ob_node _ _ Ob _ _ _ Hi)). cbn [mbind res_bind].
  assert (Hl' : ∀ i, i ∈ ns → live_node m i) by (intros; apply Hl; by right).
  assert (Hd : ∀ P : nat → nat → Prop, (∃ i' b', i' ∈ i :: ns ∧ is_node m i' b' ∧ P i' b') ↔
                P i b ∨ ∃ i' b', i' ∈ ns ∧ is_node m i' b' ∧ P i' b').
  { intros P. split.
    - intros (i' & b' & [->|Hin]%elem_of_cons & Hb' & HP); [|right; eauto].
      left. by rewrite (is_node_fun _ _ _ _ Hb Hb').
    - intros [HP|(i' & b' & Hin & ? & ?)]; [exists i, b|exists i', b']; (split; [|done]); [left|by right]. }
  pose proof (Hd (λ _ b, owns w c b)) as Hd1. cbn beta in Hd1.
  pose proof (Hd (λ _ b, ∃ c', owns w c' b ∧ c' ≠ c)) as Hd2. cbn beta in Hd2.
  assert (Hsw : ∀ ns : list nat, (∃ i b c', i ∈ ns ∧ is_node m i b ∧ owns w c' b ∧ c' ≠ c) ↔
                      ∃ i b, i ∈ ns ∧ is_node m i b ∧ ∃ c', owns w c' b ∧ c' ≠ c).
  { intros l. naive_solver. }
  setoid_rewrite Hsw in IH. setoid_rewrite Hsw. setoid_rewrite Hd1. setoid_rewrite Hd2. clear Hd Hd1 Hd2 Hsw.
  destruct (w_owner w b) as [[x|]|] eqn:Eo.
  - pose proof Eo as Eo'. apply owner_of in Eo'.
    assert (Hu : ∀ y, owns w y b → y = x). { intros y Hy%owner_of. congruence. }
    case_decide as Hx.
    + subst x. destruct (IH true o Hl') as (d' & o' & -> & H1 & H2). exists d', o'. split; [done|].
      rewrite H1, H2. split; [naive_solver|]. split; [tauto|].
      intros [?|[(c' & Hc' & Hne)|?]]; [auto| |auto]. apply Hu in Hc'. congruence.
    + destruct (IH d true Hl') as (d' & o' & -> & H1 & H2). exists d', o'. split; [done|].
      rewrite H1, H2. split; [|naive_solver]. split; [tauto|].
      intros [?|[Hc'|?]]; [auto| |auto]. apply Hu in Hc'. congruence.
  - assert (Hu : ∀ y, ¬ owns w y b). { intros y Hy%owner_of. congruence. }
    destruct (IH d o Hl') as (d' & o' & -> & H1 & H2). exists d', o'. split; [done|]. rewrite H1, H2. naive_solver.
  - assert (Hu : ∀ y, ¬ owns w y b). { intros y Hy%owner_of. congruence. }
    destruct (IH d o Hl') as (d' & o' & -> & H1 & H2). exists d', o'. split; [done|]. rewrite H1, H2. naive_solver.
Qed.

Lemma stands_fun w m e i j : wok w m → stands_for w m e i → stands_for w m e j → i = j.
Proof. intros Hw H1%start_node_spec H2%start_node_spec; try done. congruence. Qed.

Lemma only_reachable_spec w m c e s :
  wok w m → stands_for w m e s →
  ∃ b, is_only_reachable_client w c e = Ok b ∧ (b = true ↔ only_client w m e c).
Proof.
  intros Hw Hs. unfold is_only_reachable_client. rewrite (proj2 (start_node_spec w m e s Hw) Hs). cbn [mbind res_bind].
  destruct (wok_hist _ _ Hw) as [cl Hh].
  destruct (traverse_main _ _ _ s Hh (stands_live _ _ _ _ Hw Hs)) as (ns & es & -> & _ & _ & Hns & _).
  cbn [mbind res_bind].
  destruct (reach_fold w m c ns false false Hw) as (d & o & -> & Hd & Ho).
  { intros i Hi%Hns. by eapply rpath_live; [|eapply stands_live|]. }
  cbn [mbind res_bind]. eexists. split; [done|].
  assert (Hr : ∀ c', reaches_client w m e c' ↔ ∃ i b, i ∈ ns ∧ is_node m i b ∧ owns w c' b).
  { intros c'. unfold reaches_client. split.
    - intros (s' & i & b & Hs' & Hp & Hb & Hc'). assert (s' = s) as -> by (by eapply stands_fun).
      exists i, b. split; [by apply Hns|done].
    - intros (i & b & Hi%Hns & Hb & Hc'). by exists s, i, b. }
  unfold only_client. setoid_rewrite Hr. rewrite andb_true_iff, negb_true_iff, Hd. split.
  - intros [[?|H1] H2]; [done|]. split; [done|]. intros c' (i & b & Hi & Hb & Hc').
    destruct (decide (c' = c)) as [|Hne]; [done|]. exfalso. assert (o = true); [|congruence].
    apply Ho. right. by exists i, b, c'.
  - intros [H1 H2]. split; [by right|]. apply not_true_is_false. intros [?|(i & b & c' & Hi & Hb & Hc' & Hne)]%Ho; [done|].
    apply Hne, H2. eauto.
Qed.

(** What the importer decides about one entry. *)
Definition accepted (w : world) (c : nat) (t : ctype) (e : nat) : res bool :=
  if negb (bool_decide (e ∈ w_valid w)) then Ok false
  else if checks_owner t then Ok (owned_by w c e) else is_only_reachable_client w c e.

Lemma accepted_sound w m c t e : wok w m → accepted w c t e = Ok true → allowed w m c t e.
Proof.
  intros Hw. unfold accepted, allowed. case_bool_decide as Hv; cbn [negb]; [|done].
  intros Ha. split; [done|].
  assert (Hreach : is_only_reachable_client w c e = Ok true → only_client w m e c).
  { intros Hr. pose proof Hr as Hr'. unfold is_only_reachable_client in Hr'.
    apply bind_ok in Hr' as (s & Hs & _). apply (start_node_spec w m) in Hs; [|done].
    destruct (only_reachable_spec w m c e s Hw Hs) as (b & Hb & Hiff). rewrite Hr in Hb. injection Hb as <-. by apply Hiff. }
  destruct t; cbn [checks_owner] in Ha; auto; apply owned_by_spec; congruence.
Qed.
(** The importer decides about every dead entity and every body, constraint or
    child of a body, and its decision is what the specification says. *)
Lemma accepted_total w m c t e :
  wok w m → (e ∈ w_valid w → checks_owner t = true ∨ ∃ s, stands_for w m e s) →
  ∃ b, accepted w c t e = Ok b ∧ (b = true ↔ allowed w m c t e).
Proof.
  intros Hw Hs. unfold accepted, allowed. case_bool_decide as Hv; cbn [negb].
  2: { exists false. split; [done|]. split; [done|]. by intros [? _]. }
  destruct (checks_owner t) eqn:Et.
  - eexists. split; [done|]. rewrite owned_by_spec. destruct t; try done; tauto.
  - destruct (Hs Hv) as [?|(s & Hst)]; [done|].
    destruct (only_reachable_spec w m c e s Hw Hst) as (b & Hb & Hiff). exists b. split; [done|]. rewrite Hiff.
    destruct t; try done; tauto.
Qed.

(** ** Filtering a pool *)
Lemma swap_pop_mid {A} (pre rest : list A) x :
  ∃ rest', swap_pop (pre ++ x :: rest) (length pre) = pre ++ rest' ∧ rest' ≡ₚ rest.
Proof.
  unfold swap_pop. destruct rest as [|z r _] using rev_ind.
  - exists []. rewrite last_snoc, app_length. cbn [length]. replace (pred (length pre + 1)) with (length pre) by lia.
    rewrite insert_app_r_alt by lia. rewrite Nat.sub_diag. cbn [insert list_insert].
    by rewrite take_app, app_nil_r.
  - exists (z :: r). rewrite app_comm_cons, app_assoc, last_snoc, !app_length. cbn [length].
    replace (pred (length pre + S (length r) + 1)) with (length pre + S (length r)) by lia.
    rewrite <- app_assoc, insert_app_r_alt by lia. rewrite Nat.sub_diag. cbn [insert list_insert app].
    split; [|by rewrite Permutation_app_comm].
    rewrite app_comm_cons, app_assoc. rewrite take_app_alt; [done|]. rewrite app_length. done.
Qed.

Definition cok (w : world) (c : nat) (ents : list nat) (cache : gmap nat bool) : Prop :=
  ∀ k b, cache !! k = Some b → ∃ e, ents !! k = Some e ∧ is_only_reachable_client w c e = Ok b.
Lemma may_update_spec w c t ents k e cache b :
  cok w c ents cache → ents !! k = Some e → accepted w c t e = Ok b →
  ∃ cache', may_update w c t k e cache = Ok (b, cache') ∧ cok w c ents cache'.
Proof.
  intros Hc He. unfold accepted, may_update. destruct (negb _); [intros [= <-]; eauto|].
  destruct (checks_owner t); [intros [= <-]; eauto|]. intros Hb.
  destruct (cache !! k) as [b'|] eqn:Ek.
  - destruct (Hc _ _ Ek) as (e' & He' & Hb'). rewrite He in He'. injection He' as <-. rewrite Hb in Hb'.
    injection Hb' as <-. eauto.
  - rewrite Hb. cbn [mbind res_bind]. eexists. split; [done|]. intros k' b' [[<- <-]|[_ ?]]%lookup_insert_Some; eauto.
Qed.
Lemma may_update_inv w c t ents k e cache b cache' :
  cok w c ents cache → ents !! k = Some e → may_update w c t k e cache = Ok (b, cache') →
  accepted w c t e = Ok b ∧ cok w c ents cache'.
Proof.
  intros Hc He. unfold accepted, may_update. destruct (negb _); [by intros [= <- <-]|].
  destruct (checks_owner t); [by intros [= <- <-]|].
  destruct (cache !! k) as [b'|] eqn:Ek.
  - destruct (Hc _ _ Ek) as (e' & He' & Hb'). rewrite He in He'. injection He' as <-. by intros [= <- <-].
  - intros (b' & Hb' & Hm)%bind_ok. injection Hm as <- <-. split; [done|].
    intros k' b'' [[<- <-]|[_ ?]]%lookup_insert_Some; eauto.
Qed.

(** the entry of a pool in local terms *)
Definition local_item (m : emap) (t : ctype) (kv : nat * list (option nat)) : nat * list (option nat) :=
  (kv.1, map_child m t kv.2).

Lemma transform_items_total w c m t ents q fuel pre rest cache :
  length rest ≤ fuel → cok w c ents cache →
  (∀ kv, kv ∈ rest → ∃ e, ents !! kv.1 = Some e ∧ accepted w c t e = Ok (q kv)) →
  ∃ X cache', transform_items w c m t ents fuel (length pre) (pre ++ rest) cache = Ok (pre ++ X, cache') ∧
    cok w c ents cache' ∧ X ≡ₚ local_item m t <$> filter (λ kv, q kv = true) rest.
Proof.
  revert pre rest cache. induction fuel as [|fuel IH]; intros pre rest cache Hlen Hc Hq.
  { destruct rest; [|simpl in Hlen; lia]. exists [], cache. cbn [transform_items].
    rewrite app_nil_r. rewrite lookup_ge_None_2 by done. done. }
  destruct rest as [|[k v] rest].
  { exists [], cache. cbn [transform_items]. rewrite app_nil_r. rewrite lookup_ge_None_2 by done. done. }
  cbn [transform_items]. rewrite list_lookup_middle by done.
  destruct (Hq (k, v)) as (e & He & Ha); [left|]. cbn [fst] in He. rewrite He. cbn [opt_res mbind res_bind].
  destruct (may_update_spec w c t ents k e cache _ Hc He Ha) as (cache1 & -> & Hc1). cbn [mbind res_bind].
  cbn [length] in Hlen. destruct (q (k, v)) eqn:Eq.
  - rewrite insert_app_r_alt by lia. rewrite Nat.sub_diag. cbn [insert list_insert].
    replace (pre ++ (k, map_child m t v) :: rest) with ((pre ++ [(k, map_child m t v)]) ++ rest) by (by rewrite <- app_assoc).
    replace (S (length pre)) with (length (pre ++ [(k, map_child m t v)])) by (rewrite app_length; simpl; lia).
    destruct (IH (pre ++ [(k, map_child m t v)]) rest cache1) as (X & cache' & -> & Hc' & HX); [lia|done| |].
    { intros kv Hkv. apply Hq. by right. }
    exists ((k, map_child m t v) :: X), cache'. rewrite <- app_assoc. split; [done|]. split; [done|].
    rewrite filter_cons_True by done. cbn [fmap list_fmap]. by rewrite HX.
  - destruct (swap_pop_mid pre rest (k, v)) as (rest' & -> & Hp).
    destruct (IH pre rest' cache1) as (X & cache' & -> & Hc' & HX); [|done| |].
    { rewrite Hp. lia. }
    { intros kv Hkv. apply Hq. right. by rewrite <- Hp. }
    exists X, cache'. split; [done|]. split; [done|]. rewrite filter_cons_False by congruence. by rewrite HX, Hp.
Qed.

Lemma transform_items_sound w c m t ents fuel pre rest cache l' cache' :
  cok w c ents cache →
  transform_items w c m t ents fuel (length pre) (pre ++ rest) cache = Ok (l', cache') →
  cok w c ents cache' ∧ ∃ X, l' = pre ++ X ∧
    ∀ kv', kv' ∈ X → ∃ kv e, kv ∈ rest ∧ kv' = local_item m t kv ∧ ents !! kv.1 = Some e ∧ accepted w c t e = Ok true.
Proof.
  revert pre rest cache. induction fuel as [|fuel IH]; intros pre rest cache Hc; destruct rest as [|[k v] rest];
    cbn [transform_items].
  - rewrite app_nil_r. rewrite lookup_ge_None_2 by done. intros [= <- <-]. split; [done|]. exists []. rewrite app_nil_r.
    split; [done|]. intros ? Hin. by apply elem_of_nil in Hin.
  - by rewrite list_lookup_middle.
  - rewrite app_nil_r. rewrite lookup_ge_None_2 by done. intros [= <- <-]. split; [done|]. exists []. rewrite app_nil_r.
    split; [done|]. intros ? Hin. by apply elem_of_nil in Hin.
  - rewrite list_lookup_middle by done. intros (e & He & Hm)%bind_ok. apply bind_ok in Hm as ([b cache1] & Hm & Ht).
    destruct (ents !! k) as [e'|] eqn:Ek; [|done]. injection He as ->.
    destruct (may_update_inv _ _ _ _ _ _ _ _ _ Hc Ek Hm) as [Ha Hc1]. destruct b.
    + rewrite insert_app_r_alt in Ht by lia. rewrite Nat.sub_diag in Ht. cbn [insert list_insert] in Ht.
      replace (pre ++ (k, map_child m t v) :: rest) with ((pre ++ [(k, map_child m t v)]) ++ rest) in Ht by (by rewrite <- app_assoc).
      replace (S (length pre)) with (length (pre ++ [(k, map_child m t v)])) in Ht by (rewrite app_length; simpl; lia).
      apply IH in Ht as (Hc' & X & -> & HX); [|done]. split; [done|].
      exists ((k, map_child m t v) :: X). rewrite <- app_assoc. split; [done|].
      intros kv' [->|Hin]%elem_of_cons.
      * exists (k, v), e. split_and!; [left|done|done|done].
      * destruct (HX _ Hin) as (kv & e0 & ? & ? & ? & ?). exists kv, e0. split_and!; [by right|done|done|done].
    + destruct (swap_pop_mid pre rest (k, v)) as (rest' & Hsp & Hp). rewrite Hsp in Ht.
      apply IH in Ht as (Hc' & X & -> & HX); [|done]. split; [done|]. exists X. split; [done|].
      intros kv' Hin. destruct (HX _ Hin) as (kv & e0 & Hkv & ? & ? & ?). exists kv, e0. split_and!; try done.
      right. by rewrite <- Hp.
Qed.

(** An entry for component [t] of entity [e]; empty types are never applied. *)
Definition item_in (ents : list nat) (ps : list pool) (t : ctype) (e : nat) (v : list (option nat)) : Prop :=
  is_empty_type t = false ∧ ∃ p k, p ∈ ps ∧ p_type p = t ∧ (k, v) ∈ p_items p ∧ ents !! k = Some e.

Lemma item_in_cons ents p ps t e v :
  item_in ents (p :: ps) t e v ↔
  is_empty_type t = false ∧ (p_type p = t ∧ (∃ k, (k, v) ∈ p_items p ∧ ents !! k = Some e)) ∨ item_in ents ps t e v.
Proof.
  unfold item_in. split.
  - intros [He (p' & k & [->|Hin]%elem_of_cons & Ht & Hk & Hent)]; [left; eauto|right]. eauto 10.
  - intros [[He [Ht (k & Hk & Hent)]]|[He (p' & k & Hin & Ht & Hk & Hent)]]; (split; [done|]).
    + exists p, k. split; [left|done].
    + exists p', k. split; [by right|done].
Qed.

Lemma transform_pools_sound w c m ents ps cache ps' t e v' :
  cok w c ents cache → transform_pools w c m ents ps cache = Ok ps' →
  item_in ents ps' t e v' → accepted w c t e = Ok true ∧ ∃ v, v' = map_child m t v ∧ item_in ents ps t e v.
Proof.
  revert cache ps'. induction ps as [|[t0 l] ps IH]; intros cache ps' Hc; cbn [transform_pools].
  { intros [= <-] [_ (p & k & Hin & _)]. by apply elem_of_nil in Hin. }
  intros ([l1 cache1] & Hl & Hps)%bind_ok. apply bind_ok in Hps as (ps1 & Hps & [= <-]).
  assert (H1 : cok w c ents cache1 ∧ (is_empty_type t0 = false → ∀ kv', kv' ∈ l1 →
     ∃ kv e, kv ∈ l ∧ kv' = local_item m t0 kv ∧ ents !! kv.1 = Some e ∧ accepted w c t0 e = Ok true)).
  { destruct (is_empty_type t0) eqn:Et; [injection Hl as -> ->; done|].
    apply (transform_items_sound w c m t0 ents (length l) [] l) in Hl as (? & X & -> & HX); done. }
  destruct H1 as [Hc1 H1]. rewrite item_in_cons. cbn [p_type p_items].
  intros [(He & -> & k & Hk & Hent)|Hin].
  - destruct (H1 He _ Hk) as ([k0 v0] & e0 & Hin & Heq & Hent0 & Ha). unfold local_item in Heq. cbn [fst snd] in *.
    injection Heq as -> ->. rewrite Hent in Hent0. injection Hent0 as <-. split; [done|]. exists v0. split; [done|].
    apply item_in_cons. left. cbn [p_type p_items]. eauto.
  - destruct (IH _ _ Hc1 Hps Hin) as (Ha & v & -> & Hi). split; [done|]. exists v. split; [done|]. apply item_in_cons. by right.
Qed.

Definition pool_filtered (m : emap) (q : ctype → nat → bool) (ents : list nat) (p p' : pool) : Prop :=
  p_type p' = p_type p ∧
  if is_empty_type (p_type p) then p_items p' = p_items p
  else p_items p' ≡ₚ local_item m (p_type p) <$>
    filter (λ kv, (from_option (q (p_type p)) false (ents !! kv.1)) = true) (p_items p).

Lemma transform_pools_total w c m ents ps cache q :
  cok w c ents cache →
  (∀ p kv, p ∈ ps → is_empty_type (p_type p) = false → kv ∈ p_items p →
     ∃ e, ents !! kv.1 = Some e ∧ accepted w c (p_type p) e = Ok (q (p_type p) e)) →
  ∃ ps', transform_pools w c m ents ps cache = Ok ps' ∧ Forall2 (pool_filtered m q ents) ps ps'.
Proof.
  revert cache. induction ps as [|[t l] ps IH]; intros cache Hc Hq; cbn [transform_pools]; [by exists []|].
  assert (H1 : ∃ l1 cache1, (if is_empty_type t then Ok (l, cache) else transform_items w c m t ents (length l) 0 l cache)
     = Ok (l1, cache1) ∧ cok w c ents cache1 ∧ pool_filtered m q ents (Pool t l) (Pool t l1)).
  { unfold pool_filtered. cbn [p_type p_items]. destruct (is_empty_type t) eqn:Et; [by exists l, cache|].
    destruct (transform_items_total w c m t ents (λ kv, from_option (q t) false (ents !! kv.1)) (length l) [] l cache)
      as (X & cache1 & Hx & Hc1 & HX); [done|done| |].
    { intros kv Hkv. destruct (Hq (Pool t l) kv) as (e & He & Ha); [left|done|done|]. exists e. rewrite He. done. }
    exists X, cache1. done. }
  destruct H1 as (l1 & cache1 & -> & Hc1 & Hl1). cbn [mbind res_bind].
  destruct (IH cache1 Hc1) as (ps' & -> & HF). { intros p kv Hp. apply Hq. by right. }
  cbn [mbind res_bind]. eexists. split; [done|]. by constructor.
Qed.

(** ** Merging action histories *)
Lemma patch_other w t e v w' t' e' :
  w_patch w t e v = Ok w' → (t', e') ≠ (t, e) → w_comps w' !! (t', e') = w_comps w !! (t', e').
Proof. unfold w_patch. intros (u & _ & [= <-])%bind_ok Hne. cbn [w_comps]. by rewrite lookup_insert_ne. Qed.
Lemma patch_same w t e v w' :
  w_patch w t e v = Ok w' → w_valid w' = w_valid w ∧ w_node w' = w_node w ∧ w_edge w' = w_edge w ∧ w_graph w' = w_graph w
    ∧ w_next w' = w_next w ∧ w_comps w' = <[(t, e) := v]> (w_comps w) ∧ w_has w t e = true.
Proof.
  unfold w_patch. intros (u & Hu & [= <-])%bind_ok. unfold require_ in Hu. destruct (w_has w t e); done.
Qed.
(** All but the components is the same. *)
Definition same_shape (w w' : world) : Prop :=
  w_valid w' = w_valid w ∧ w_node w' = w_node w ∧ w_edge w' = w_edge w ∧ w_graph w' = w_graph w ∧ w_next w' = w_next w.
Lemma same_shape_trans w1 w2 w3 : same_shape w1 w2 → same_shape w2 w3 → same_shape w1 w3.
Proof. intros (?&?&?&?&?) (?&?&?&?&?). repeat split; congruence. Qed.
Lemma patch_shape w t e v w' : w_patch w t e v = Ok w' → same_shape w w'.
Proof. intros H%patch_same. unfold same_shape. tauto. Qed.

Lemma foldl_fail {A B} (f : res A → B → res A) (l : list B) (r : res A) :
  (∀ x, f AssertFail x = AssertFail ∧ f UB x = UB ∧ f NoFuel x = NoFuel) →
  (∀ a, r ≠ Ok a) → ∀ a, foldl f r l ≠ Ok a.
Proof.
  intros Hf. revert r. induction l as [|x l IH]; intros r Hr a; cbn [foldl]; [done|].
  destruct (Hf x) as (H1 & H2 & H3). destruct r; [by destruct (Hr a0)|..]; rewrite ?H1, ?H2, ?H3; by apply IH.
Qed.
Lemma foldl_ok_cons {A B} (f : res A → B → res A) (l : list B) x a b :
  (∀ x, f AssertFail x = AssertFail ∧ f UB x = UB ∧ f NoFuel x = NoFuel) →
  foldl f (Ok a) (x :: l) = Ok b → ∃ a', f (Ok a) x = Ok a' ∧ foldl f (Ok a') l = Ok b.
Proof.
  intros Hf. cbn [foldl]. destruct (f (Ok a) x) eqn:E; [eauto|..]; intros H; exfalso;
    (eapply foldl_fail in H; [done|done|done]).
Qed.

Lemma merge_items_spec ents l w w' :
  merge_items ents w l = Ok w' →
  same_shape w w' ∧
  (∀ t e, w_comps w' !! (t, e) ≠ w_comps w !! (t, e) → t = THistory ∧ ∃ k v, (k, v) ∈ l ∧ ents !! k = Some e) ∧
  (∀ t e, is_Some (w_comps w' !! (t, e)) ↔ is_Some (w_comps w !! (t, e))).
Proof.
  unfold merge_items. revert w. induction l as [|[k v] l IH]; intros w.
  { cbn [foldl]. intros [= <-]. done. }
  intros (w1 & H1 & H2)%foldl_ok_cons; [|done].
  destruct (IH _ H2) as (Hs & Hc & Hi).
  cbn [mbind res_bind fst snd] in H1. apply bind_ok in H1 as (e0 & He0 & H1).
  destruct (ents !! k) as [e1|] eqn:Ek; [|done]. injection He0 as ->.
  assert (H3 : same_shape w w1 ∧ (∀ t e, w_comps w1 !! (t, e) ≠ w_comps w !! (t, e) → t = THistory ∧ e = e0)
     ∧ ∀ t e, is_Some (w_comps w1 !! (t, e)) ↔ is_Some (w_comps w !! (t, e))).
  { destruct v as [|h v]; [injection H1 as <-; done|]. apply bind_ok in H1 as (cur & Hcur & H1).
    split; [by eapply patch_shape|]. destruct (patch_same _ _ _ _ _ H1) as (_ & _ & _ & _ & _ & -> & Hh).
    apply bool_decide_eq_true in Hh. split.
    - intros t e Hne. destruct (decide ((t, e) = (THistory, e0))) as [[= -> ->]|Hd]; [done|].
      by rewrite lookup_insert_ne in Hne.
    - intros t e. destruct (decide ((t, e) = (THistory, e0))) as [[= -> ->]|Hd].
      + rewrite lookup_insert. split; [done|by intros _].
      + by rewrite lookup_insert_ne. }
  destruct H3 as (Hs1 & Hc1 & Hi1). split_and!.
  - by eapply same_shape_trans.
  - intros t e Hne. destruct (decide (w_comps w' !! (t, e) = w_comps w1 !! (t, e))) as [Heq|Hd].
    + rewrite Heq in Hne. apply Hc1 in Hne as [-> ->]. split; [done|]. exists k, v. split; [left|done].
    + destruct (Hc _ _ Hd) as (-> & k' & v' & Hin & Hk'). split; [done|]. exists k', v'. split; [by right|done].
  - intros t e. by rewrite Hi, Hi1.
Qed.

Lemma merge_items_total ents l w :
  (∀ k v, (k, v) ∈ l → ∃ e, ents !! k = Some e ∧ (v ≠ [] → is_Some (w_comps w !! (THistory, e)))) →
  ∃ w', merge_items ents w l = Ok w'.
Proof.
  unfold merge_items. revert w. induction l as [|[k v] l IH]; intros w Hl; cbn [foldl]; [eauto|].
  destruct (Hl k v) as (e & He & Hh); [left|]. cbn [mbind res_bind fst snd]. rewrite He. cbn [opt_res mbind res_bind].
  destruct v as [|h v]; [apply IH; intros; apply Hl; by right|].
  destruct Hh as [cur Hcur]; [done|]. rewrite Hcur. cbn [opt_res mbind res_bind]. unfold w_patch.
  assert (w_has w THistory e = true) as -> by (apply bool_decide_eq_true; by eexists). cbn [require_ mbind res_bind].
  apply IH. intros k' v' Hin. destruct (Hl k' v') as (e' & He' & Hh'); [by right|]. exists e'. split; [done|].
  intros Hv'. cbn [w_comps]. destruct (decide ((THistory, e') = (THistory, e))) as [[= ->]|Hd];
    [rewrite lookup_insert; by eexists|]. rewrite lookup_insert_ne by done. auto.
Qed.

Lemma swap_pop_perm {A} (l : list A) i x : l !! i = Some x → l ≡ₚ x :: swap_pop l i.
Proof.
  intros Hi. apply elem_of_list_split_length in Hi as (pre & rest & -> & ->).
  destruct (swap_pop_mid pre rest x) as (rest' & -> & ->). by rewrite Permutation_middle.
Qed.
Lemma item_in_perm ents ps ps' t e v : ps ≡ₚ ps' → item_in ents ps t e v ↔ item_in ents ps' t e v.
Proof. intros Hp. unfold item_in. by setoid_rewrite Hp. Qed.

(** ** Applying a snapshot *)
Lemma replace_items_spec t ents l w w' :
  replace_items t ents w l = Ok w' →
  same_shape w w' ∧
  (∀ t' e, w_comps w' !! (t', e) = w_comps w !! (t', e) ∨
     t' = t ∧ e ∈ w_valid w ∧ is_Some (w_comps w !! (t, e)) ∧
     ∃ k v, (k, v) ∈ l ∧ ents !! k = Some e ∧ w_comps w' !! (t, e) = Some v) ∧
  (∀ t e, is_Some (w_comps w' !! (t, e)) ↔ is_Some (w_comps w !! (t, e))) ∧
  (∀ e k v, (k, v) ∈ l → ents !! k = Some e → e ∈ w_valid w → is_Some (w_comps w !! (t, e)) →
     ∃ k' v', (k', v') ∈ l ∧ ents !! k' = Some e ∧ w_comps w' !! (t, e) = Some v').
Proof.
  unfold replace_items. revert w. induction l as [|[k v] l IH]; intros w.
  { cbn [foldl]. intros [= <-]. split_and!; try done; [by left|]. intros e k v Hin. by apply elem_of_nil in Hin. }
  intros (w1 & H1 & H2)%foldl_ok_cons; [|done].
  destruct (IH _ H2) as (Hs & Hc & Hi & Ht).
  cbn [mbind res_bind fst snd] in H1. apply bind_ok in H1 as (e0 & He0 & H1).
  destruct (ents !! k) as [e1|] eqn:Ek; [|done]. injection He0 as ->.
  assert (H3 : same_shape w w1 ∧ (∀ t' e, w_comps w1 !! (t', e) = w_comps w !! (t', e) ∨
      t' = t ∧ e = e0 ∧ e ∈ w_valid w ∧ is_Some (w_comps w !! (t, e)) ∧ w_comps w1 !! (t, e) = Some v)
     ∧ (∀ t e, is_Some (w_comps w1 !! (t, e)) ↔ is_Some (w_comps w !! (t, e)))
     ∧ (e0 ∈ w_valid w → is_Some (w_comps w !! (t, e0)) → w_comps w1 !! (t, e0) = Some v)).
  { destruct (bool_decide (e0 ∈ w_valid w) && w_has w t e0) eqn:Eb.
    - apply andb_true_iff in Eb as [Ev%bool_decide_eq_true Eh%bool_decide_eq_true].
      split; [by eapply patch_shape|]. destruct (patch_same _ _ _ _ _ H1) as (_ & _ & _ & _ & _ & -> & _).
      split_and!.
      + intros t' e. destruct (decide ((t', e) = (t, e0))) as [[= -> ->]|Hd].
        * right. rewrite lookup_insert. done.
        * left. by rewrite lookup_insert_ne.
      + intros t' e. destruct (decide ((t', e) = (t, e0))) as [[= -> ->]|Hd].
        * rewrite lookup_insert. split; [done|by intros _].
        * by rewrite lookup_insert_ne.
      + intros _ _. by rewrite lookup_insert.
    - injection H1 as <-. split_and!; try done; [by left|]. intros Hv Hh. exfalso.
      rewrite bool_decide_true in Eb by done. cbn [andb] in Eb. apply bool_decide_eq_false in Eb. done. }
  destruct H3 as (Hs1 & Hc1 & Hi1 & Ht1). pose proof Hs1 as (Hv1 & _).
  split_and!.
  - by eapply same_shape_trans.
  - intros t' e. destruct (Hc t' e) as [Heq|(-> & Hv & Hh & k' & v' & Hin & Hk' & Hw')].
    + destruct (Hc1 t' e) as [Heq1|(-> & -> & Hv & Hh & Hw1)]; [left; congruence|].
      right. split_and!; try done. exists k, v. rewrite Heq. split_and!; [left|done|done].
    + right. rewrite Hv1 in Hv. rewrite Hi1 in Hh. split_and!; try done. exists k', v'. split_and!; [by right|done|done].
  - intros t' e. by rewrite Hi, Hi1.
  - intros e k' v' [[= -> ->]|Hin]%elem_of_cons He Hv Hh.
    + assert (e = e0) as -> by congruence.
      destruct (Hc t e0) as [Heq|(_ & _ & _ & k' & v' & Hin & Hk' & Hw')].
      * exists k, v. rewrite Heq. split_and!; [left|done|auto].
      * exists k', v'. split_and!; [by right|done|done].
    + rewrite <- Hv1 in Hv. destruct (Ht e k' v' Hin He Hv) as (k2 & v2 & ? & ? & ?); [by apply Hi1|].
      exists k2, v2. split_and!; [by right|done|done].
Qed.

Lemma replace_pools_spec ents ps w w' :
  replace_pools ents w ps = Ok w' →
  same_shape w w' ∧
  (∀ t e, w_comps w' !! (t, e) = w_comps w !! (t, e) ∨
     e ∈ w_valid w ∧ is_Some (w_comps w !! (t, e)) ∧ ∃ v, item_in ents ps t e v ∧ w_comps w' !! (t, e) = Some v) ∧
  (∀ t e, is_Some (w_comps w' !! (t, e)) ↔ is_Some (w_comps w !! (t, e))) ∧
  (∀ t e v, item_in ents ps t e v → e ∈ w_valid w → is_Some (w_comps w !! (t, e)) →
     ∃ v', item_in ents ps t e v' ∧ w_comps w' !! (t, e) = Some v').
Proof.
  unfold replace_pools. revert w. induction ps as [|p ps IH]; intros w.
  { cbn [foldl]. intros [= <-]. split_and!; try done; [by left|].
    intros t e v [_ (p & k & Hin & _)]. by apply elem_of_nil in Hin. }
  intros (w1 & H1 & H2)%foldl_ok_cons; [|done].
  destruct (IH _ H2) as (Hs & Hc & Hi & Ht). cbn [mbind res_bind] in H1.
  assert (H3 : same_shape w w1 ∧ (∀ t e, w_comps w1 !! (t, e) = w_comps w !! (t, e) ∨
     e ∈ w_valid w ∧ is_Some (w_comps w !! (t, e)) ∧
     ∃ v, item_in ents (p :: ps) t e v ∧ w_comps w1 !! (t, e) = Some v) ∧
     (∀ t e, is_Some (w_comps w1 !! (t, e)) ↔ is_Some (w_comps w !! (t, e))) ∧
     (∀ k e v, is_empty_type (p_type p) = false → (k, v) ∈ p_items p → ents !! k = Some e →
        e ∈ w_valid w → is_Some (w_comps w !! (p_type p, e)) →
        ∃ v', item_in ents (p :: ps) (p_type p) e v' ∧ w_comps w1 !! (p_type p, e) = Some v')).
  { destruct (is_empty_type (p_type p)) eqn:Ee.
    { injection H1 as <-. split_and!; try done. by left. }
    apply replace_items_spec in H1 as (? & Hc1 & Hi1 & Ht1). split_and!; try done.
    - intros t e. destruct (Hc1 t e) as [?|(-> & Hv & Hh & k & v & Hin & Hk & Hw)]; [by left|]. right.
      split_and!; try done. exists v. split; [|done]. apply item_in_cons. left. eauto.
    - intros k e v _ Hin Hk Hv Hh. destruct (Ht1 e k v Hin Hk Hv Hh) as (k' & v' & ? & ? & ?).
      exists v'. split; [|done]. apply item_in_cons. left. eauto. }
  destruct H3 as (Hs1 & Hc1 & Hi1 & Ht1). pose proof Hs1 as (Hv1 & _).
  assert (Hmono : ∀ t e v, item_in ents ps t e v → item_in ents (p :: ps) t e v).
  { intros. apply item_in_cons. by right. }
  split_and!.
  - by eapply same_shape_trans.
  - intros t e. destruct (Hc t e) as [Heq|(Hv & Hh & v & Hin & Hw)].
    + rewrite Heq. apply Hc1.
    + right. rewrite Hv1 in Hv. rewrite Hi1 in Hh. split_and!; try done. exists v. auto.
  - intros t e. by rewrite Hi, Hi1.
  - intros t e v [(He & <- & k & Hk & Hent)|Hin]%item_in_cons Hv Hh.
    + destruct (Ht1 k e v He Hk Hent Hv Hh) as (v1 & Hin1 & Hw1).
      destruct (Hc (p_type p) e) as [Heq|(_ & _ & v2 & Hin2 & Hw2)].
      * exists v1. rewrite Heq. done.
      * exists v2. auto.
    + rewrite <- Hv1 in Hv. apply Hi1 in Hh. destruct (Ht t e v Hin Hv Hh) as (v' & ? & ?). eauto.
Qed.

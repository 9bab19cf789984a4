(** What each step does to the entity map. *)
From Coq Require Import ZArith.
From Verif Require Import Outcome MapModel CliModel CliSpec CliProofs CliProofs2 CliProofs3 CliProofs4.
Local Open Scope nat_scope.

(** ** Growth *)
(** From [s] to [s'] the map gains exactly the pairs that were announced and
    those in [x], none of which clashes with the map of [s]. *)
Definition grows (s s' : cst) (x : list (nat * nat)) : Prop :=
  bij (cx_map (c_k s)) ∧ bij (cx_map (c_k s')) ∧
  ∃ qs, announced (c_out s') = announced (c_out s) ++ qs ∧
    (∀ r l, known s' r = Some l ↔ known s r = Some l ∨ (r, l) ∈ qs ++ x) ∧
    (∀ r l, (r, l) ∈ qs ++ x → known s r = None ∧ known_local s l = None).
Lemma grows_same s s' : bij (cx_map (c_k s)) → cx_map (c_k s') = cx_map (c_k s) →
  announced (c_out s') = announced (c_out s) → grows s s' [].
Proof.
  intros B Em Eo. split; [done|]. split; [by rewrite Em|]. exists []. rewrite app_nil_r. split; [done|].
  split.
  - intros r l. unfold known. rewrite Em, app_nil_r, elem_of_nil. naive_solver.
  - intros r l. rewrite app_nil_r. by intros ?%elem_of_nil.
Qed.
Lemma grows_trans s1 s2 s3 x y : grows s1 s2 x → grows s2 s3 y → grows s1 s3 (x ++ y).
Proof.
  intros (B1 & B2 & qs & E1 & K1 & F1) (_ & B3 & qt & E2 & K2 & F2). split; [done|]. split; [done|].
  exists (qs ++ qt). split; [by rewrite E2, E1, app_assoc|]. split.
  - intros r l. rewrite K2, K1, !elem_of_app. naive_solver.
  - intros r l Hin.
    assert ((r, l) ∈ qs ++ x ∨ (r, l) ∈ qt ++ y) as [H|H] by (rewrite !elem_of_app in *; naive_solver).
    + by apply F1.
    + apply F2 in H as [H1 H2]. split.
      * destruct (known s1 r) as [l'|] eqn:E; [|done]. assert (known s2 r = Some l') by (apply K1; by left). congruence.
      * destruct (known_local s1 l) as [r'|] eqn:E; [|done]. apply B1 in E.
        assert (known s2 r' = Some l) as E' by (apply K1; by left). apply B2 in E'. unfold known_local in H2. congruence.
Qed.
Lemma grows_trans0 s1 s2 s3 x : grows s1 s2 x → grows s2 s3 [] → grows s1 s3 x.
Proof. intros H1 H2. rewrite <- (app_nil_r x). by eapply grows_trans. Qed.
Lemma grows_trans0l s1 s2 s3 x : grows s1 s2 [] → grows s2 s3 x → grows s1 s3 x.
Proof. intros H1 H2. change x with ([] ++ x). by eapply grows_trans. Qed.
Lemma grows_ins s r l s' : bij (cx_map (c_k s)) → on_map s (λ m, em_insert m r l) = Ok s' → grows s s' [(r, l)].
Proof.
  intros B (m & Hm & Ew & Eo & Ek)%on_map_ok. pose proof (em_insert_bij _ _ _ _ B Hm) as B'.
  apply em_insert_ok in Hm as (H1 & H2 & ->). split; [done|]. split; [by rewrite Ek|].
  exists []. rewrite app_nil_r, Eo. split; [done|]. cbn [app]. split.
  - intros r' l'. unfold known. rewrite Ek. cbn. rewrite lookup_insert_Some, elem_of_list_singleton. split.
    + intros [[-> ->]|[? ?]]; [by right|by left].
    + intros [H|[= -> ->]]; [|by left]. right. split; [|done]. intros ->. congruence.
  - intros r' l' [= -> ->]%elem_of_list_singleton. done.
Qed.
Lemma grows_emit s s' x : grows s s' x → grows s (emit s' (OMap x)) [].
Proof.
  intros (B1 & B2 & qs & E & K & F). split; [done|]. split; [done|]. exists (qs ++ x). rewrite app_nil_r.
  split; [|done]. cbn [emit c_out]. rewrite announced_app, E. cbn. by rewrite app_nil_r, app_assoc.
Qed.
Lemma grows_plain s o : bij (cx_map (c_k s)) → announced [o] = [] → grows s (emit s o) [].
Proof. intros B E. apply grows_same; [done|done|]. cbn [emit c_out]. by rewrite announced_app, E, app_nil_r. Qed.
Lemma grows_bij s s' x : grows s s' x → bij (cx_map (c_k s')).
Proof. by intros (_ & B & _). Qed.

(** Changes while importing that keep the map and announce nothing. *)
Lemma pstep_keep ro ki s l s' : qlab ro ki false false l → cx_importing (c_k s) = true → pstep s l = Ok s' →
  cx_map (c_k s') = cx_map (c_k s) ∧ c_out s' = c_out s.
Proof.
  intros Hl Hi H. destruct l; cbn [pstep qlab] in *; try (by injection H as <-); try done.
  - apply put_net_ok in H as (_ & _ & _ & -> & ->). by rewrite Hi.
  - by apply put_owner_ok in H as (_ & _ & _ & -> & [(_ & _ & ->)|(_ & ->)]).
  - reqd H. by injection H as <-.
  - by apply put_node_ok in H as (_ & _ & _ & -> & ->).
  - by apply put_edge_ok in H as (_ & _ & _ & _ & _ & -> & ->).
  - apply bind_ok in H as (s1 & H & H2). injection H2 as <-. cbn. by apply put_edge_ok in H as (_ & _ & _ & _ & _ & -> & ->).
  - by apply put_asset_ok in H as (_ & -> & ->).
  - by apply put_linked_ok in H as (_ & -> & ->).
  - apply destroy_one_ok in H as (_ & Eo & _ & _ & _ & _ & _ & _ & _ & Hm & _). split; [|done].
    destruct Hm as [[? _]|[Hr _]]; [done|]. unfold report in Hr. by rewrite Hi, andb_false_r in Hr.
  - by destruct Hl.
Qed.
Lemma qpath_keep ro ki s s' : path (qlab ro ki false false) s s' → cx_importing (c_k s) = true →
  cx_map (c_k s') = cx_map (c_k s) ∧ c_out s' = c_out s.
Proof.
  intros (ls & H & F). revert s H. induction F as [|l ls Hl F IH]; intros s H Hi.
  - by injection H as <-.
  - cbn [pruns] in H. apply bind_ok in H as (s1 & H1 & H2).
    assert (cx_importing (c_k s1) = true) as Hi1 by (eapply pstep_importing; eauto).
    destruct (IH _ H2 Hi1) as [-> ->]. by eapply pstep_keep.
Qed.
Lemma put_owner_grows s e o s' : bij (cx_map (c_k s)) → put_owner s e o = Ok s' → grows s s' [].
Proof.
  intros B H. apply put_owner_ok in H as (_ & _ & _ & Eo & Ek).
  apply grows_same; [done| |by rewrite Eo]. by destruct Ek as [(_ & _ & ->)|(_ & ->)].
Qed.
Lemma put_net_grows s e s' : bij (cx_map (c_k s)) → put_net s e = Ok s' → grows s s' [].
Proof.
  intros B H. apply put_net_ok in H as (_ & _ & _ & Eo & Ek).
  apply grows_same; [done| |by rewrite Eo]. rewrite Ek. by destruct (cx_importing (c_k s)).
Qed.
Lemma c_create_grows s : bij (cx_map (c_k s)) → grows s (c_create s).1 [].
Proof. intros B. by apply grows_same. Qed.

Lemma link_entries_grows f own es s s' ps :
  bij (cx_map (c_k s)) → link_entries s f own es = Ok (s', ps) → grows s s' ps.
Proof.
  revert s ps. induction es as [|[i r] es IH]; intros s ps B H; cbn [link_entries] in H.
  - injection H as <- <-. by apply grows_same.
  - apply bind_ok in H as (l & Hl & H). apply bind_ok in H as (s1 & H1 & H).
    apply bind_ok in H as (s2 & H2 & H). apply bind_ok in H as (s3 & H3 & H).
    apply bind_ok in H as ([s4 qs] & H4 & H). injection H as <- <-.
    pose proof (grows_ins _ _ _ _ B H1) as G1.
    pose proof (put_net_grows _ _ _ (grows_bij _ _ _ G1) H2) as G2.
    assert (grows s2 s3 []) as G3.
    { destruct own as [c|]; [eapply put_owner_grows; [by eapply grows_bij|done]|injection H3 as <-].
      apply grows_same; [by eapply grows_bij|done|done]. }
    pose proof (IH _ _ (grows_bij _ _ _ G3) H4) as G4.
    change ((r, l) :: qs) with ([(r, l)] ++ qs). eapply grows_trans; [|exact G4].
    eapply grows_trans0; [|exact G3]. eapply grows_trans0; [exact G1|exact G2].
Qed.
Lemma link_asset_grows s a f s' : bij (cx_map (c_k s)) → link_asset s a f = Ok s' → grows s s' [].
Proof.
  intros B H. unfold link_asset in H. apply bind_ok in H as (es & He & H).
  apply bind_ok in H as ([s1 ps] & H1 & H). apply bind_ok in H as (s2 & H2 & H). injection H as <-.
  apply link_entries_grows in H1 as G1; [|done].
  apply put_linked_ok in H2 as (_ & Eo & Ek).
  apply grows_emit. eapply (grows_trans0 _ s1).
  - eapply grows_trans0l; [|exact G1]. by apply grows_same.
  - apply grows_same; [by eapply grows_bij|cbn; by rewrite Ek|cbn; by rewrite Eo].
Qed.
Lemma c_destroy_grows s e s' : cx_importing (c_k s) = true → bij (cx_map (c_k s)) → c_destroy s e = Ok s' → grows s s' [].
Proof.
  intros Hi B H. pose proof (c_destroy_path false true false false _ _ _ eq_refl H) as P.
  destruct (qpath_keep _ _ _ _ P Hi) as [Em Eo]. apply grows_same; [done|done|by rewrite Eo].
Qed.
Lemma ustep_grows s u s' : cx_importing (c_k s) = true → bij (cx_map (c_k s)) → ustep s u = Ok s' → grows s s' [].
Proof.
  intros Hi B H. destruct u as [|e|e|e a b|e a b|e|a|a f]; cbn [ustep] in H.
  - injection H as <-. by apply grows_same.
  - by eapply put_net_grows.
  - apply put_node_ok in H as (_ & _ & _ & Eo & Ek). apply grows_same; [done|by rewrite Ek|by rewrite Eo].
  - apply put_edge_ok in H as (_ & _ & _ & _ & _ & Eo & Ek). apply grows_same; [done|by rewrite Ek|by rewrite Eo].
  - apply bind_ok in H as (s1 & H & H2). injection H2 as <-.
    apply put_edge_ok in H as (_ & _ & _ & _ & _ & Eo & Ek). apply grows_same; cbn; [done|by rewrite Ek|by rewrite Eo].
  - by eapply c_destroy_grows.
  - apply bind_ok in H as (r & _ & H). injection H as <-. by apply grows_plain.
  - by eapply link_asset_grows.
Qed.
Lemma uruns_grows us s s' : cx_importing (c_k s) = true → bij (cx_map (c_k s)) → uruns s us = Ok s' → grows s s' [].
Proof.
  revert s. induction us as [|u us IH]; intros s Hi B H; cbn [uruns] in H.
  - injection H as <-. by apply grows_same.
  - apply bind_ok in H as (s1 & H1 & H2). pose proof (ustep_grows _ _ _ Hi B H1) as G1.
    eapply grows_trans0; [exact G1|]. eapply IH; [by rewrite (ustep_imp _ _ _ H1)|by eapply grows_bij|done].
Qed.
Lemma create_unknown_grows rs s s' ps : bij (cx_map (c_k s)) → create_unknown s rs = Ok (s', ps) → grows s s' ps.
Proof.
  revert s ps. induction rs as [|r rs IH]; intros s ps B H; cbn [create_unknown] in H.
  - injection H as <- <-. by apply grows_same.
  - destruct (em_contains _ r); [by eapply IH|]. cbn [c_create] in H.
    apply bind_ok in H as (s1 & H1 & H). apply bind_ok in H as ([s2 qs] & H2 & H). injection H as <- <-.
    apply grows_ins in H1 as G1; [|done].
    change ((r, cw_next (c_w s)) :: qs) with ([(r, cw_next (c_w s))] ++ qs). eapply grows_trans.
    + eapply grows_trans0l; [|exact G1]. by apply grows_same.
    + eapply IH; [by eapply grows_bij|done].
Qed.
Lemma enter_owner_grows s l o s' ps : bij (cx_map (c_k s)) → enter_owner s l o = Ok (s', ps) → grows s s' ps.
Proof.
  intros B H. unfold enter_owner in H. destruct o as [ro|]; [|injection H as <- <-; by apply grows_same].
  destruct (em_map _ !! ro) as [lo|].
  - apply bind_ok in H as (s1 & H1 & H). injection H as <- <-. by eapply put_owner_grows.
  - cbn [c_create] in H. apply bind_ok in H as (s1 & H1 & H). apply bind_ok in H as (s2 & H2 & H). injection H as <- <-.
    apply grows_ins in H1 as G1; [|done].
    eapply grows_trans0; [|eapply put_owner_grows; [by eapply grows_bij|done]].
    eapply grows_trans0l; [|exact G1]. by apply grows_same.
Qed.
Lemma on_map_rest s f s' : on_map s f = Ok s' → cx_importing (c_k s') = cx_importing (c_k s) ∧ c_w s' = c_w s.
Proof. by intros (m & _ & -> & _ & ->)%on_map_ok. Qed.
Lemma put_owner_imp s e o s' : put_owner s e o = Ok s' → cx_importing (c_k s') = cx_importing (c_k s).
Proof. by intros (_ & _ & _ & _ & [(_ & _ & ->)|(_ & ->)])%put_owner_ok. Qed.
Lemma enter_owner_imp s l o s' ps : enter_owner s l o = Ok (s', ps) → cx_importing (c_k s') = cx_importing (c_k s).
Proof.
  intros H. unfold enter_owner in H. destruct o as [ro|]; [|by injection H as <- _].
  destruct (em_map _ !! ro) as [lo|].
  - apply bind_ok in H as (s1 & H1 & H). injection H as <- _. by eapply put_owner_imp.
  - cbn [c_create] in H. apply bind_ok in H as (s1 & H1 & H). apply bind_ok in H as (s2 & H2 & H). injection H as <- _.
    rewrite (put_owner_imp _ _ _ _ H2). by rewrite (proj1 (on_map_rest _ _ _ H1)).
Qed.
Lemma enter_all_grows es s s' ps : cx_importing (c_k s) = true → bij (cx_map (c_k s)) →
  enter_all s es = Ok (s', ps) → grows s s' ps.
Proof.
  revert s ps. induction es as [|n es IH]; intros s ps Hi B H; cbn [enter_all] in H.
  - injection H as <- <-. by apply grows_same.
  - destruct (em_contains _ (ne_r n)); [by eapply IH|]. cbn [c_create] in H.
    apply bind_ok in H as (s1 & H1 & H). apply bind_ok in H as (s2 & H2 & H).
    apply bind_ok in H as (s3 & H3 & H). apply bind_ok in H as ([s4 p4] & H4 & H).
    apply bind_ok in H as (s5 & H5 & H). apply bind_ok in H as (? & _ & H).
    apply bind_ok in H as ([s6 qs] & H6 & H). injection H as <- <-.
    set (l := cw_next (c_w s)) in *.
    apply grows_ins in H1 as G1; [|done].
    destruct (on_map_rest _ _ _ H1) as [I1 _]. cbn in I1. rewrite Hi in I1.
    assert (grows s1 s2 []) as G2.
    { apply put_asset_ok in H2 as (_ & Eo & Ek). apply grows_same; [by eapply grows_bij|by rewrite Ek|by rewrite Eo]. }
    assert (cx_importing (c_k s2) = true) as I2 by (by apply put_asset_ok in H2 as (_ & _ & ->)).
    pose proof (put_net_grows _ _ _ (grows_bij _ _ _ G2) H3) as G3.
    assert (cx_importing (c_k s3) = true) as I3.
    { apply put_net_ok in H3 as (_ & _ & _ & _ & ->). by rewrite I2. }
    pose proof (enter_owner_grows _ _ _ _ _ (grows_bij _ _ _ G3) H4) as G4.
    pose proof (enter_owner_imp _ _ _ _ _ H4) as I4. rewrite I3 in I4.
    assert (grows s4 (emit s4 (OEntered l)) []) as G4' by (apply grows_plain; [by eapply grows_bij|done]).
    pose proof (uruns_grows _ (emit s4 (OEntered l)) _ I4 (grows_bij _ _ _ G4') H5) as G5.
    assert (cx_importing (c_k s5) = true) as I5.
    { eapply (path_importing false true true false);
        [eapply uruns_path; [done|done| |exact H5]; exact I4|exact I4]. }
    pose proof (IH _ _ I5 (grows_bij _ _ _ G5) H6) as G6.
    change ((ne_r n, l) :: p4 ++ qs) with ([(ne_r n, l)] ++ p4 ++ qs).
    eapply grows_trans.
    { eapply grows_trans0l; [|exact G1]. by apply grows_same. }
    eapply grows_trans; [|exact G6].
    eapply grows_trans0; [|exact G5]. eapply grows_trans0; [|exact G4'].
    eapply grows_trans0l; [|exact G4]. eapply grows_trans0l; [exact G2|exact G3].
Qed.

(** *** The steps that announce *)
Lemma recv_client_grows s r s' : bij (cx_map (c_k s)) → recv_client s r = Ok s' → grows s s' [].
Proof.
  intros B H. unfold recv_client in H. cbn [c_create] in H. apply bind_ok in H as (? & _ & H).
  apply bind_ok in H as (s2 & H2 & H). injection H as <-.
  apply grows_ins in H2 as G; [|done].
  eapply grows_trans0; [apply grows_emit; eapply grows_trans0l; [|exact G]; by apply grows_same|].
  apply grows_plain; [exact (grows_bij _ _ _ G)|done].
Qed.
Lemma recv_create_grows s cs s' : bij (cx_map (c_k s)) → recv_create s cs = Ok s' → grows s s' [].
Proof.
  intros B (s1 & new & s3 & H1 & H3 & ->)%recv_create_parts.
  pose proof (create_unknown_grows _ _ _ _ B H1) as G1.
  destruct (qpath_keep _ _ _ _ H3 eq_refl) as [Em Eo].
  assert (grows s (match new with [] => s1 | _ => emit s1 (OMap new) end) []) as G2.
  { destruct new; [exact G1|by apply grows_emit]. }
  eapply grows_trans0; [exact G2|]. apply grows_same; [by eapply grows_bij|..].
  - cbn. rewrite Em. done.
  - cbn. rewrite Eo. done.
Qed.
Lemma recv_entered_grows s es s' : bij (cx_map (c_k s)) → recv_entered s es = Ok s' → grows s s' [].
Proof.
  intros B (s1 & ps & H1 & _ & ->)%recv_entered_parts.
  apply enter_all_grows in H1 as G1; [|done|done].
  assert (grows s s1 ps) as G1'. { eapply grows_trans0l; [|exact G1]. by apply grows_same. }
  assert (grows s (match ps with [] => s1 | _ => emit s1 (OMap ps) end) []) as G2.
  { destruct ps; [exact G1'|by apply grows_emit]. }
  eapply grows_trans0; [exact G2|]. apply grows_same; [by eapply grows_bij|done|done].
Qed.

(** *** update_entity_map *)
Lemma recv_map_known ps s s' : bij (cx_map (c_k s)) → recv_map s ps = Ok s' →
  c_w s' = c_w s ∧ c_out s' = c_out s ∧
  (∀ r l, known s' r = Some l ↔ known s r = Some l ∨ ((l, r) ∈ ps ∧ lives s l)).
Proof.
  revert s. induction ps as [|[l r] ps IH]; intros s B H; cbn [recv_map] in H.
  - injection H as <-. split; [done|]. split; [done|]. intros r l. rewrite elem_of_nil. naive_solver.
  - apply bind_ok in H as (s1 & H1 & H). unfold valid in H1.
    destruct (bool_decide_reflect (l ∈ cw_alive (c_w s))) as [Hv|Hv].
    + pose proof (grows_ins _ _ _ _ B H1) as (_ & B1 & qs & Eq & K1 & _).
      apply on_map_ok in H1 as (m & _ & Ew & Eo & _). rewrite Eo in Eq.
      rewrite <- (app_nil_r (announced (c_out s))) in Eq at 1. apply app_inv_head in Eq as <-. cbn [app] in K1.
      destruct (IH _ B1 H) as (W2 & O2 & K2). split; [by rewrite W2|]. split; [by rewrite O2|].
      intros r' l'. rewrite K2, K1, elem_of_list_singleton, elem_of_cons. unfold lives. rewrite Ew. naive_solver.
    + injection H1 as <-. destruct (IH _ B H) as (W2 & O2 & K2). split; [done|]. split; [done|].
      intros r' l'. rewrite K2, elem_of_cons. unfold lives. naive_solver.
Qed.

(** *** The user's actions other than linking an asset *)
Lemma killpath_known s s' : path (λ l, match l with LIns _ _ | LDel _ => False | _ => alab l end) s s' →
  bij (cx_map (c_k s)) →
  ∃ new, rep_d s' = rep_d s ++ new ∧ ∀ r l, known s' r = Some l ↔ known s r = Some l ∧ r ∉ new.
Proof.
  intros (ls & H & F). revert s H. induction F as [|l ls Hl F IH]; intros s H B.
  - injection H as <-. exists []. rewrite app_nil_r. split; [done|]. intros r l. rewrite elem_of_nil. naive_solver.
  - cbn [pruns] in H. apply bind_ok in H as (s1 & H1 & H2).
    assert (alab l) as Ha by by destruct l.
    destruct (pstep_rep _ _ _ Ha H1) as [_ RD].
    pose proof (pstep_bij _ _ _ H1 B) as B1.
    destruct (IH _ H2 B1) as (new & Hn & Hk).
    eexists. split; [rewrite Hn, RD, <- app_assoc; reflexivity|].
    assert (∀ r x, known s1 r = Some x ↔ known s r = Some x ∧
      r ∉ (match l with LKill e => if report s e then [e] else [] | _ => [] end)) as Hk1.
    { intros r x. unfold known.
      assert (cx_map (c_k s1) = cx_map (c_k s) →
        em_map (cx_map (c_k s1)) !! r = Some x ↔ em_map (cx_map (c_k s)) !! r = Some x ∧ r ∉ ([] : list nat)) as Hsame.
      { intros ->. rewrite elem_of_nil. naive_solver. }
      destruct l; cbn [pstep] in H1; try done; try (injection H1 as <-; by apply Hsame).
      - apply Hsame. apply put_net_ok in H1 as (_ & _ & _ & _ & ->). by destruct (cx_importing (c_k s)).
      - apply Hsame. by apply put_owner_ok in H1 as (_ & _ & _ & _ & [(_ & _ & ->)|(_ & ->)]).
      - apply Hsame. reqd H1. by injection H1 as <-.
      - apply Hsame. by apply put_node_ok in H1 as (_ & _ & _ & _ & ->).
      - apply Hsame. by apply put_edge_ok in H1 as (_ & _ & _ & _ & _ & _ & ->).
      - apply Hsame. apply bind_ok in H1 as (s3 & H1 & H3). injection H3 as <-. cbn.
        by apply put_edge_ok in H1 as (_ & _ & _ & _ & _ & _ & ->).
      - apply Hsame. by apply put_asset_ok in H1 as (_ & _ & ->).
      - apply Hsame. by apply put_linked_ok in H1 as (_ & _ & ->).
      - apply destroy_one_ok in H1 as (_ & _ & _ & _ & _ & _ & _ & _ & _ & Hm & _).
        destruct Hm as [[-> Hm]|[Hr Hm]].
        + destruct (report s e); [|rewrite elem_of_nil; naive_solver]. rewrite elem_of_list_singleton.
          specialize (Hm eq_refl). split; [|naive_solver]. intros Hx. split; [done|]. intros ->. congruence.
        + rewrite Hr. apply em_erase_ok in Hm as (l' & Hl' & ->). cbn.
          rewrite lookup_delete_Some, elem_of_list_singleton. naive_solver. }
    intros r x. rewrite Hk, Hk1, elem_of_app. naive_solver.
Qed.
Lemma qpath_out ro ki s s' : path (qlab ro ki false false) s s' → c_out s' = c_out s.
Proof.
  intros P. apply (path_inv _ (λ x, c_out x = c_out s)) in P; [done| |done].
  intros s1 l s2 Hl E H. apply pstep_out in H. rewrite H, E. destruct l; rewrite ?app_nil_r; try done. by destruct Hl.
Qed.
Lemma ustep_known s u s' : cx_importing (c_k s) = false → wfw (c_w s) → bij (cx_map (c_k s)) →
  (∀ a f, u ≠ ULink a f) → ustep s u = Ok s' →
  announced (c_out s') = announced (c_out s) ∧
  ∀ r l, known s' r = Some l ↔ known s r = Some l ∧ ¬ (networked s r ∧ ¬ lives s' r).
Proof.
  intros Hi Hw B Hu H.
  assert (path (λ l, match l with LIns _ _ | LDel _ => False | _ => alab l end) s s') as P.
  { destruct u as [|e|e|e a b|e a b|e|a|a f]; cbn [ustep] in H.
    - by apply path_one with LNew.
    - by apply path_one with (LNet e).
    - by apply path_one with (LNode e).
    - by apply path_one with (LEdge e a b).
    - by apply path_one with (LManifold e a b).
    - eapply path_mono; [|by eapply (c_destroy_path false true false false)].
      intros [] Hl; try done; by destruct Hl.
    - apply bind_ok in H as (r & _ & H). by apply path_one with (LEmit (OSync r)).
    - by destruct (Hu a f). }
  split.
  - destruct u as [|e|e|e a b|e a b|e|a|a f]; cbn [ustep] in H.
    + by injection H as <-.
    + by apply put_net_ok in H as (_ & _ & _ & -> & _).
    + by apply put_node_ok in H as (_ & _ & _ & -> & _).
    + by apply put_edge_ok in H as (_ & _ & _ & _ & _ & -> & _).
    + apply bind_ok in H as (s1 & H & H2). injection H2 as <-. cbn. by apply put_edge_ok in H as (_ & _ & _ & _ & _ & -> & _).
    + pose proof (c_destroy_path false true false false _ _ _ eq_refl H) as P2. by rewrite (qpath_out _ _ _ _ P2).
    + apply bind_ok in H as (r & _ & H). injection H as <-. cbn [emit c_out]. rewrite announced_app. by rewrite app_nil_r.
    + by destruct (Hu a f).
  - destruct (killpath_known _ _ P B) as (new & Hn & Hk).
    destruct (ustep_rep _ _ _ Hi Hw H) as [_ (new' & Hn' & _ & Hin)].
    assert (new = new') as -> by (rewrite Hn in Hn'; by apply app_inv_head in Hn').
    intros r l. rewrite Hk, Hin. done.
Qed.

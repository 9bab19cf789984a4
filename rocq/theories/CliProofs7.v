(** Ownership, the messages of an update and snapshots. *)
From Coq Require Import ZArith.
From Verif Require Import Outcome MapModel CliModel CliSpec CliProofs CliProofs2 CliProofs3 CliProofs4 CliProofs5 CliProofs6.
Local Open Scope nat_scope.

(** ** Ownership *)
Definition own_ok (s : cst) : Prop := ∀ e, owned s e ↔ owner_of s e = Some (this_client s).
Lemma own_frame s s' : cw_owner (c_w s') = cw_owner (c_w s) → cx_me (c_k s') = cx_me (c_k s) →
  cx_owned (c_k s') = cx_owned (c_k s) → own_ok s → own_ok s'.
Proof. intros E1 E2 E3 O e. unfold owned, owner_of, this_client. rewrite E1, E2, E3. apply O. Qed.
Lemma put_owner_own s e o s' : own_ok s → put_owner s e o = Ok s' → own_ok s'.
Proof.
  intros O (_ & Hn & Ew & _ & Ek)%put_owner_ok. intros x. unfold owned, owner_of, this_client. rewrite Ew. cbn.
  specialize (O x). unfold owned, owner_of, this_client in O.
  destruct Ek as [(Ho & _ & ->)|(Ho & ->)]; cbn.
  - rewrite elem_of_union, elem_of_singleton, O. destruct (decide (x = e)) as [->|Hx].
    + rewrite lookup_insert, Ho. split; auto.
    + rewrite lookup_insert_ne by done. naive_solver.
  - rewrite O. destruct (decide (x = e)) as [->|Hx].
    + rewrite lookup_insert, Hn. naive_solver.
    + by rewrite lookup_insert_ne.
Qed.
Definition ownlab (l : lab) : Prop := match l with LReown _ _ | LMe _ | LPend _ => False | _ => True end.
Lemma pstep_own s l s' : ownlab l → own_ok s → pstep s l = Ok s' → own_ok s'.
Proof.
  intros Hl O H. destruct l; cbn [pstep] in H; try done; try (injection H as <-; by apply (own_frame s)).
  - apply put_net_ok in H as (_ & _ & Ew & _ & Ek). apply (own_frame s); [by rewrite Ew| | |done];
      rewrite Ek; by destruct (cx_importing (c_k s)).
  - by eapply put_owner_own.
  - apply put_node_ok in H as (_ & _ & Ew & _ & Ek). apply (own_frame s); [by rewrite Ew|by rewrite Ek|by rewrite Ek|done].
  - apply put_edge_ok in H as (_ & _ & _ & _ & Ew & _ & Ek). apply (own_frame s); [by rewrite Ew|by rewrite Ek|by rewrite Ek|done].
  - apply bind_ok in H as (s1 & H & H2). injection H2 as <-.
    apply put_edge_ok in H as (_ & _ & _ & _ & Ew & _ & Ek). apply (own_frame s); cbn; [by rewrite Ew|by rewrite Ek|by rewrite Ek|done].
  - apply put_asset_ok in H as (Ew & _ & Ek). apply (own_frame s); [by rewrite Ew|by rewrite Ek|by rewrite Ek|done].
  - apply put_linked_ok in H as (Ew & _ & Ek). apply (own_frame s); [by rewrite Ew|by rewrite Ek|by rewrite Ek|done].
  - apply destroy_one_ok in H as (Ew & _ & Em & _ & _ & _ & _ & _ & _ & _ & Ho).
    intros x. specialize (O x) as Ox. unfold owned, owner_of, this_client in *. rewrite Ew, Em. cbn.
    destruct (decide (x = e)) as [->|Hx].
    + rewrite lookup_delete. destruct Ho as [(_ & _ & ->)|(Hn & ->)].
      * rewrite elem_of_difference, elem_of_singleton. naive_solver.
      * split; [|done]. intros H%Ox. done.
    + rewrite lookup_delete_ne by done. destruct Ho as [(_ & _ & ->)|(Hn & ->)]; [|done].
      rewrite elem_of_difference, elem_of_singleton. naive_solver.
  - apply on_map_ok in H as (m & _ & Ew & _ & Ek). apply (own_frame s); [by rewrite Ew|by rewrite Ek|by rewrite Ek|done].
  - apply on_map_ok in H as (m & _ & Ew & _ & Ek). apply (own_frame s); [by rewrite Ew|by rewrite Ek|by rewrite Ek|done].
Qed.
Lemma ownpath_own s s' : path ownlab s s' → own_ok s → own_ok s'.
Proof. apply path_inv. intros; eapply pstep_own; eauto. Qed.
Lemma qlab_own b c d l : qlab false b c d l → ownlab l.
Proof. by destruct l. Qed.
Lemma qpath_own b c d s s' : path (qlab false b c d) s s' → own_ok s → own_ok s'.
Proof. intros P. apply ownpath_own. eapply path_mono; [|exact P]. apply qlab_own. Qed.
Lemma own_imp s b : own_ok (importing s b) ↔ own_ok s.
Proof. done. Qed.
Lemma ustep_opath s u s' : ustep s u = Ok s' → path ownlab s s'.
Proof.
  intros H. destruct u as [|e|e|e a b|e a b|e|a|a f]; cbn [ustep] in H.
  - by apply path_one with LNew.
  - by apply path_one with (LNet e).
  - by apply path_one with (LNode e).
  - by apply path_one with (LEdge e a b).
  - by apply path_one with (LManifold e a b).
  - eapply path_mono; [|by eapply (c_destroy_path false true false false)]. apply qlab_own.
  - apply bind_ok in H as (r & _ & H). by apply path_one with (LEmit (OSync r)).
  - unfold link_asset in H. apply bind_ok in H as (es & He & H).
    apply bind_ok in H as ([s1 ps] & H1 & H). apply bind_ok in H as (s2 & H2 & H). injection H as <-.
    apply path_trans with (importing s true); [by apply path_one with (LImp true)|].
    apply path_trans with s1; [eapply path_mono; [|by eapply (link_entries_path false false true false)]; apply qlab_own|].
    apply path_trans with s2; [by apply path_one with (LLinked a)|].
    apply path_trans with (importing s2 (cx_importing (c_k s))); [by apply path_one with (LImp (cx_importing (c_k s)))|].
    by apply path_one with (LEmit (OMap ps)).
Qed.
Lemma ustep_own s u s' : ustep s u = Ok s' → own_ok s → own_ok s'.
Proof. intros H. apply ownpath_own. by eapply ustep_opath. Qed.
Lemma recv_map_opath ps s s' : recv_map s ps = Ok s' → path ownlab s s'.
Proof.
  revert s. induction ps as [|[l r] ps IH]; intros s H; cbn [recv_map] in H.
  - injection H as <-. apply path_refl.
  - apply bind_ok in H as (s1 & H1 & H). apply path_trans with s1; [|by apply IH].
    destruct (valid s l); [by apply path_one with (LIns r l)|injection H1 as <-; apply path_refl].
Qed.
Lemma recv_map_own ps s s' : recv_map s ps = Ok s' → own_ok s → own_ok s'.
Proof. intros H. apply ownpath_own. by eapply recv_map_opath. Qed.
Lemma recv_client_own s r s' : recv_client s r = Ok s' → (∀ e, owner_of s e = None) → own_ok s → own_ok s'.
Proof.
  intros H Hn O. unfold recv_client in H. cbn [c_create] in H. apply bind_ok in H as (u & Hu & H).
  apply bind_ok in H as (s2 & H2 & H). injection H as <-.
  apply on_map_ok in H2 as (m & _ & Ew & _ & Ek). intros e. unfold owned, owner_of, this_client. cbn. rewrite Ew, Ek. cbn.
  pose proof (O e) as Oe. specialize (Hn e). unfold owned, owner_of, this_client in *.
  rewrite Oe, Hn. done.
Qed.
Lemma recv_entered_own s es s' : recv_entered s es = Ok s' → own_ok s → own_ok s'.
Proof.
  intros (s1 & ps & _ & P & ->)%recv_entered_parts O. apply own_imp.
  assert (own_ok s1) as O1 by (by eapply qpath_own, (own_imp s true)).
  by destruct ps.
Qed.
Lemma recv_destroy_own s rs s' : recv_destroy s rs = Ok s' → own_ok s → own_ok s'.
Proof.
  intros (s1 & P & ->)%recv_destroy_parts O. apply own_imp. eapply qpath_own; [exact P|]. apply own_imp.
  rewrite notify_exited_eq. by apply (own_frame s).
Qed.
Lemma recv_snapshot_own s now ts rs some s' : recv_snapshot s now ts rs some = Ok s' → own_ok s → own_ok s'.
Proof.
  unfold recv_snapshot. destruct (existsb _ _); [by intros [= <-]|].
  destruct (match cx_sync (c_k s) with Some d => _ | None => _ end) as [t d].
  set (un := remove_dups _). intros H O. destruct (_ || _).
  - injection H as <-. destruct some, un; by apply (own_frame s).
  - injection H as <-. destruct un; by apply (own_frame s).
Qed.

(** *** Importing *)
Lemma import_one_own s c s' : cx_importing (c_k s) = true → own_ok s →
  (∀ o l p, ce_owner c = Some o → known s (ce_r c) = Some l → owner_of s l = Some p → p = to_local s o) →
  import_one s c = Ok s' →
  own_ok s' ∧ cx_importing (c_k s') = true ∧ cx_map (c_k s') = cx_map (c_k s) ∧
  ∀ l, known s (ce_r c) ≠ Some l → owner_of s' l = owner_of s l.
Proof.
  intros Hi O Hp H. unfold import_one in H. fold (known s (ce_r c)) in H.
  destruct (known s (ce_r c)) as [l|] eqn:Ek; [|by injection H as <-].
  destruct (negb (valid s l)); [by injection H as <-|].
  apply bind_ok in H as (s1 & H1 & H).
  assert (own_ok s1 ∧ c_k s1 = c_k s ∧ cw_owner (c_w s1) = cw_owner (c_w s)) as (O1 & Ek1 & Ew1).
  { destruct (_ && _); [|by injection H1 as <-]. pose proof (pstep_own s (LNet l) s1 I O H1) as O1.
    apply put_net_ok in H1 as (_ & _ & Ew & _ & Ek1). split; [done|]. rewrite Ek1, Hi, Ew. done. }
  destruct (ce_owner c) as [o|] eqn:Eo.
  2:{ injection H as <-. unfold owner_of. rewrite Ek1, Ew1. done. }
  destruct (bool_decide_reflect (is_Some (cw_owner (c_w s1) !! l))) as [Hs|Hs].
  - injection H as <-. destruct Hs as [p Hpl]. rewrite Ew1 in Hpl.
    assert (p = to_local s1 o) as Ep.
    { unfold to_local. rewrite Ek1. by eapply Hp. }
    assert (cw_owner (c_w (set_w s1 (set_cw_owner (c_w s1) (<[l:=to_local s1 o]> (cw_owner (c_w s1)))))) = cw_owner (c_w s)) as E.
    { cbn. rewrite Ew1, <- Ep. by apply insert_id. }
    split; [|split; [|split]].
    + apply (own_frame s); [done|cbn; by rewrite Ek1|cbn; by rewrite Ek1|done].
    + cbn. by rewrite Ek1.
    + cbn. by rewrite Ek1.
    + intros l' _. unfold owner_of. by rewrite E.
  - pose proof (put_owner_own _ _ _ _ O1 H) as O2. apply put_owner_ok in H as (_ & _ & Ew & _ & Ekk).
    split; [done|]. split; [|split].
    + destruct Ekk as [(_ & _ & ->)|(_ & ->)]; cbn; by rewrite Ek1.
    + destruct Ekk as [(_ & _ & ->)|(_ & ->)]; cbn; by rewrite Ek1.
    + intros l' Hl. unfold owner_of. rewrite Ew. cbn. rewrite lookup_insert_ne by congruence. by rewrite Ew1.
Qed.
Lemma import_all_own cs s s' : cx_importing (c_k s) = true → bij (cx_map (c_k s)) → own_ok s → NoDup (ce_r <$> cs) →
  (∀ c o l p, c ∈ cs → ce_owner c = Some o → known s (ce_r c) = Some l → owner_of s l = Some p → p = to_local s o) →
  import_all s cs = Ok s' → own_ok s'.
Proof.
  revert s. induction cs as [|c cs IH]; intros s Hi B O Hd Hp H; cbn [import_all] in H.
  - by injection H as <-.
  - apply bind_ok in H as (s1 & H1 & H). cbn in Hd. apply NoDup_cons in Hd as [Hn Hd].
    destruct (import_one_own _ _ _ Hi O (λ o l p, Hp c o l p (elem_of_list_here _ _)) H1) as (O1 & I1 & M1 & W1).
    eapply (IH s1); [done|by rewrite M1|done|done| |done].
    intros c' o l p Hc Eo Ek Ew. unfold to_local. rewrite M1.
    assert (known s (ce_r c') = Some l) as Ek' by (unfold known in *; by rewrite M1 in Ek).
    eapply (Hp c'); [by apply elem_of_list_further|done|done|]. rewrite <- Ew. symmetry. apply W1.
    intros E. assert (ce_r c = ce_r c') as Ec.
    { apply B in E, Ek'. congruence. }
    apply Hn. rewrite Ec. by apply elem_of_list_fmap_1.
Qed.
Lemma create_unknown_rest rs s s' ps : create_unknown s rs = Ok (s', ps) →
  cw_owner (c_w s') = cw_owner (c_w s) ∧ cx_me (c_k s') = cx_me (c_k s) ∧ cx_owned (c_k s') = cx_owned (c_k s) ∧
  c_out s' = c_out s.
Proof.
  revert s ps. induction rs as [|r rs IH]; intros s ps H; cbn [create_unknown] in H.
  - by injection H as <- _.
  - destruct (em_contains _ r); [by eapply IH|]. cbn [c_create] in H.
    apply bind_ok in H as (s3 & H3 & H). apply bind_ok in H as ([s4 qs] & H4 & H). injection H as <- _.
    apply on_map_ok in H3 as (m & _ & Ew & Eo & Ek). destruct (IH _ _ H4) as (-> & -> & -> & ->).
    rewrite Ew, Ek, Eo. done.
Qed.
Lemma recv_create_own s cs s' : bij (cx_map (c_k s)) → wfw (c_w s) → keeps_owners s cs →
  recv_create s cs = Ok s' → own_ok s → own_ok s'.
Proof.
  intros B W [Hd Hs] H O. unfold recv_create in H.
  apply bind_ok in H as ([s1 new] & H1 & H). apply bind_ok in H as (s3 & H3 & H).
  apply bind_ok in H as (s4 & H4 & H). apply bind_ok in H as (s5 & H5 & H). injection H as <-.
  destruct (create_unknown_ok _ _ _ _ W H1) as (W1 & K1 & R1 & A1 & N1).
  pose proof (create_unknown_grows _ _ _ _ B H1) as (_ & B1 & qs & Eq & G & _).
  destruct (create_unknown_rest _ _ _ _ H1) as (Ew & Em & Eow & Eo).
  rewrite Eo in Eq. rewrite <- (app_nil_r (announced (c_out s))) in Eq at 1. apply app_inv_head in Eq as <-. cbn [app] in G.
  assert (own_ok s1) as O1 by by apply (own_frame s).
  assert (own_ok s3) as O3.
  { eapply import_all_own; [| | | | |exact H3].
    - done.
    - by destruct new.
    - apply own_imp. by destruct new.
    - done.
    - intros c o l p Hc Eco Ek Hp.
      assert (known s1 (ce_r c) = Some l) as Ek1 by (by destruct new).
      assert (owner_of s l = Some p) as Hp1 by (unfold owner_of in *; rewrite <- Ew; by destruct new).
      assert (to_local (importing (match new with [] => s1 | _ => emit s1 (OMap new) end) true) o = to_local s1 o) as ->
        by (by destruct new).
      apply G in Ek1 as [Ek1|Hin].
      + specialize (Hs c l o p Hc Ek1 Eco Hp1). unfold to_local. destruct o as [r|]; [|done].
        destruct Hs as (m & -> & Hr). cbn. symmetry. apply G. by left.
      + apply N1 in Hin as (_ & Hl & _). exfalso. apply Hl. apply (wf_owner _ W). eauto. }
  apply own_imp. eapply qpath_own; [by eapply (edges_all_path false false false false)|].
  eapply qpath_own; [by eapply (finish_all_path false false false false)|]. done.
Qed.

(** *** The update *)
Lemma insert_owner_own es s s' : insert_owner s es = Ok s' → own_ok s →
  own_ok s' ∧ cx_me (c_k s') = cx_me (c_k s) ∧ NoDup es ∧
  (∀ e, e ∈ es → owner_of s e = None ∧ owner_of s' e = Some (this_client s)) ∧
  (∀ e, e ∉ es → owner_of s' e = owner_of s e).
Proof.
  revert s. induction es as [|e es IH]; intros s H O; cbn [insert_owner] in H.
  - injection H as <-. split; [done|]. split; [done|]. split; [constructor|]. split; [|done]. intros e ?%elem_of_nil. done.
  - apply bind_ok in H as (s1 & H1 & H). pose proof (put_owner_own _ _ _ _ O H1) as O1.
    apply put_owner_ok in H1 as (_ & Hn & Ew & _ & Ek).
    assert (cx_me (c_k s1) = cx_me (c_k s)) as Em by (by destruct Ek as [(_ & _ & ->)|(_ & ->)]).
    destruct (IH _ H O1) as (O2 & Em2 & Hd & Hi & Ho).
    assert (owner_of s1 e = Some (this_client s)) as He by (unfold owner_of; rewrite Ew; cbn; by rewrite lookup_insert).
    assert (e ∉ es) as Hne. { intros Hin. apply Hi in Hin as [Hin _]. congruence. }
    split; [done|]. split; [congruence|]. split; [by apply NoDup_cons|]. split.
    + intros x [->|Hx]%elem_of_cons.
      * split; [done|]. by rewrite (Ho _ Hne).
      * destruct (Hi _ Hx) as [H2 H3]. split.
        -- rewrite <- H2. unfold owner_of. rewrite Ew. cbn. rewrite lookup_insert_ne; [done|]. intros ->. done.
        -- rewrite H3. unfold this_client. by rewrite Em.
    + intros x Hx. apply not_elem_of_cons in Hx as [Hx1 Hx2]. rewrite (Ho _ Hx2).
      unfold owner_of. rewrite Ew. cbn. by rewrite lookup_insert_ne.
Qed.
Lemma upd_ccreated_own s s1 : upd_ccreated s = Ok s1 → own_ok s →
  own_ok s1 ∧ cx_me (c_k s1) = cx_me (c_k s) ∧
  (∀ e, e ∈ created_next s → owner_of s e = None ∧ owner_of s1 e = Some (this_client s)) ∧
  (∀ e, e ∉ created_next s → owner_of s1 e = owner_of s e).
Proof.
  unfold upd_ccreated, created_next. destruct (cx_ccreated (c_k s)) as [|e es] eqn:E; intros H O.
  - injection H as <-. split; [done|]. split; [done|]. split; [|done]. intros e ?%elem_of_nil. done.
  - apply bind_ok in H as (s0 & H0 & H). injection H as <-.
    destruct (insert_owner_own _ _ _ H0 O) as (O0 & Em & _ & Hi & Ho).
    split; [by apply (own_frame s0)|]. done.
Qed.
Lemma c_update_own s s' : c_update s = Ok s' → own_ok s →
  own_ok s' ∧ this_client s' = this_client s ∧
  (∀ e, e ∈ created_next s → owner_of s e = None ∧ owner_of s' e = Some (this_client s)) ∧
  (∀ e, e ∉ created_next s → owner_of s' e = owner_of s e).
Proof.
  unfold c_update. intros H O. apply bind_ok in H as (s1 & H1 & H). injection H as <-.
  destruct (upd_ccreated_own _ _ H1 O) as (O1 & Em & Hi & Ho).
  set (s' := upd_requests _).
  assert (c_w s' = c_w s1 ∧ cx_me (c_k s') = cx_me (c_k s1) ∧ cx_owned (c_k s') = cx_owned (c_k s1)) as (E1 & E2 & E3).
  { unfold s'. rewrite upd_requests_eq. cbn.
    destruct (upd_destroyed_rest (upd_created (upd_cdestroyed s1))) as [-> ->]. cbn.
    destruct (upd_created_rest (upd_cdestroyed s1)) as [-> ->]. cbn. by rewrite upd_cdestroyed_eq. }
  split; [apply (own_frame s1); [by rewrite E1|done..]|]. split; [unfold this_client; congruence|].
  unfold owner_of in *. rewrite E1. done.
Qed.
Lemma cstep_own s o s' : wfw (c_w s) → bij (cx_map (c_k s)) →
  (∀ cs, o = CCreate cs → keeps_owners s cs) → (∀ r, o = CClient r → ∀ e, owner_of s e = None) →
  cstep s o = Ok s' → own_ok s → own_ok s'.
Proof.
  intros W B Hc Hm H O. destruct o; cbn [cstep] in H.
  - by eapply ustep_own.
  - by eapply c_update_own.
  - eapply recv_client_own; [done|by eapply Hm|done].
  - by eapply recv_map_own.
  - eapply recv_create_own; [done|done|by apply Hc|done|done].
  - by eapply recv_destroy_own.
  - by eapply recv_entered_own.
  - by eapply recv_snapshot_own.
  - apply bind_ok in H as (l & _ & H). injection H as <-. by apply (own_frame s).
  - injection H as <-. by apply (own_frame s).
  - injection H as <-. by apply (own_frame s).
  - injection H as <-. by apply (own_frame s).
Qed.
(** In an execution whose create packets change no owner, and which assigns
    this client while no entity has an owner. *)
Definition orderly (s0 : cst) (os : list cop) : Prop :=
  (∀ cs s s', step_of s0 os (CCreate cs) s s' → keeps_owners s cs) ∧
  (∀ r s s', step_of s0 os (CClient r) s s' → ∀ e, owner_of s e = None).
Lemma step_of_snoc s0 os o' o s s' : step_of s0 os o s s' → step_of s0 (os ++ [o']) o s s'.
Proof. intros (os1 & os2 & -> & H). exists os1, (os2 ++ [o']). split; [|done]. by rewrite <- app_assoc. Qed.
Lemma runs_own s0 os s : runs s0 os s → orderly s0 os → own_ok s.
Proof.
  revert os s. apply (runs_ind' (λ os s, orderly s0 os → own_ok s)).
  - intros (a & b & c & d & ->) _ e. unfold owned, owner_of. cbn. rewrite lookup_empty. split; [|done].
    by intros ?%elem_of_empty.
  - intros os o s s' Hr IH H [Hc Hm].
    assert (step_of s0 (os ++ [o]) o s s') as Hst by (exists os, []; done).
    eapply cstep_own; [by eapply runs_wfw|by eapply runs_bij| | |exact H|].
    + intros cs ->. by eapply Hc.
    + intros r ->. by eapply Hm.
    + apply IH. split.
      * intros cs t t' Ht. eapply Hc. by apply step_of_snoc.
      * intros r t t' Ht. eapply Hm. by apply step_of_snoc.
Qed.

(** ** The messages of an update *)
Lemma some_out_mid {A} (l : list A) o o1 x o2 : some_out l o = o1 ++ x :: o2 → o1 = [] ∧ o2 = [] ∧ x = o ∧ l ≠ [].
Proof.
  destruct l; cbn; [by destruct o1|]. destruct o1 as [|y o1]; cbn; [by intros [= <- <-]|]. intros [= _ E]. by destruct o1.
Qed.
Lemma app_mid {A} (a b : list A) o1 x o2 : a ++ b = o1 ++ x :: o2 →
  (∃ o3, a = o1 ++ x :: o3) ∨ ∃ o3, o1 = a ++ o3 ∧ b = o3 ++ x :: o2.
Proof.
  revert o1. induction a as [|y a IH]; intros o1 E; cbn in E; [right; by exists o1|].
  destruct o1 as [|z o1]; cbn in E.
  - injection E as <- E. left. by exists a.
  - injection E as <- E. apply IH in E as [(o3 & ->)|(o3 & -> & Eb)]; [left|right].
    + by exists o3.
    + by exists o3.
Qed.
(** What an update hands over: only simulated entities the worker does not
    have, each once, together with the ones among them that are this client's. *)
Lemma update_creates s s' o1 es ow o2 : wki s → c_update s = Ok s' →
  c_out s' = c_out s ++ o1 ++ OWCreate es ow :: o2 →
  es ≠ [] ∧ NoDup es ∧ (∀ e, e ∈ es ↔ simulated s' e ∧ e ∉ worker (c_out s ++ o1)) ∧
  (∀ e, e ∈ ow ↔ e ∈ es ∧ owned s' e).
Proof.
  intros K U%c_update_ok E. rewrite (u_out _ _ U) in E. apply app_inv_head in E.
  apply app_mid in E as [(o3 & E)|(o3 & -> & E)]; [by apply some_out_mid in E as (_ & _ & [=] & _)|].
  apply app_mid in E as [(o4 & E)|(o4 & -> & E)]; [by apply some_out_mid in E as (_ & _ & [=] & _)|].
  apply app_mid in E as [(o5 & E)|(o5 & -> & E)].
  - apply some_out_mid in E as (-> & -> & [= -> ->] & Hne).
    assert (worker (c_out s ++ some_out (cx_ccreated (c_k s)) (OCreate (cx_ccreated (c_k s))) ++
              some_out (cx_cdestroyed (c_k s)) (ODestroy (cx_cdestroyed (c_k s))) ++ []) = worker (c_out s)) as EW.
    { unfold worker. rewrite !worker_from_app. by destruct (cx_ccreated (c_k s)), (cx_cdestroyed (c_k s)). }
    split; [done|]. split; [apply NoDup_filter, (k_dup _ K)|]. split.
    + intros e. rewrite EW, made_iff. unfold simulated. rewrite (u_node _ _ U), (u_edge _ _ U), (u_man _ _ U). split.
      * intros (H1 & H2 & H3). split; [split; [by apply (k_life _ K)|done]|by apply (k_new _ K)].
      * intros ([H1 H2] & H3). destruct (k_has _ K e H1 H2) as [?|H4]; [done|]. split; [done|]. split; [|done].
        destruct H1 as [H1|H1]; [by apply (wf_node _ (k_wf _ K))|by apply (wf_edge _ (k_wf _ K))].
    + intros e. rewrite elem_of_list_filter. unfold owned. naive_solver.
  - apply app_mid in E as [(o6 & E)|(o6 & -> & E)]; [by apply some_out_mid in E as (_ & _ & [=] & _)|].
    assert (OWCreate es ow ∈ ((λ q, ORequest q.1 q.2) <$> cx_pending (c_k s))) as Hin.
    { rewrite E. apply elem_of_app. right. apply elem_of_list_here. }
    by apply elem_of_list_fmap in Hin as (q & [=] & _).
Qed.
(** A request never names a simulated entity the worker does not have. *)
Lemma update_requests s s' o1 es t o2 : wki s → c_update s = Ok s' →
  c_out s' = c_out s ++ o1 ++ ORequest es t :: o2 →
  ∀ e, e ∈ worker (c_out s ++ o1) ↔ simulated s' e.
Proof.
  intros K H E. destruct (update_wki _ _ H K) as [_ W]. apply c_update_ok in H as U.
  assert (worker (c_out s ++ o1) = worker (c_out s')) as EW; [|intros e; rewrite EW; apply W].
  rewrite E. rewrite !app_assoc. set (a := c_out s ++ o1).
  assert (∃ qs, ORequest es t :: o2 = (λ q, ORequest q.1 q.2) <$> qs) as (qs & ->).
  { rewrite (u_out _ _ U) in E. apply app_inv_head in E.
    apply app_mid in E as [(o3 & E)|(o3 & -> & E)]; [by apply some_out_mid in E as (_ & _ & [=] & _)|].
    apply app_mid in E as [(o4 & E)|(o4 & -> & E)]; [by apply some_out_mid in E as (_ & _ & [=] & _)|].
    apply app_mid in E as [(o5 & E)|(o5 & -> & E)]; [by apply some_out_mid in E as (_ & _ & [=] & _)|].
    apply app_mid in E as [(o6 & E)|(o6 & -> & E)]; [by apply some_out_mid in E as (_ & _ & [=] & _)|].
    apply fmap_app_inv in E as (k1 & k2 & _ & E & _). by exists k2. }
  by rewrite worker_requests.
Qed.

(** ** Snapshots *)
Lemma omap_translates s rs : existsb (unknown s) rs = false →
  translates s rs (omap (λ r, em_map (cx_map (c_k s)) !! r) rs).
Proof.
  induction rs as [|r rs IH]; intros H; [constructor|]. cbn in H. apply orb_false_iff in H as [H1 H2].
  unfold unknown in H1. cbn [omap list_omap]. destruct (em_map (cx_map (c_k s)) !! r) as [l|] eqn:E; [|done].
  constructor; [|by apply IH]. split; [done|]. apply negb_false_iff in H1. unfold valid in H1. by apply bool_decide_eq_true in H1.
Qed.
Lemma translates_known s rs ls : translates s rs ls → existsb (unknown s) rs = false.
Proof.
  induction 1 as [|r l rs ls [H1 H2] _ IH]; [done|]. cbn. rewrite IH, orb_false_r. unfold unknown.
  unfold known in H1. rewrite H1. apply negb_false_iff, bool_decide_eq_true. done.
Qed.
Definition inputs_out (us : list nat) (t d : Z) : list cout := match us with [] => [] | _ => [OInput us t d] end.
Definition clock_difference (s : cst) (now ts : Z) : Z :=
  match cx_sync (c_k s) with Some d => d | None => (now - (ts + cx_hrtt (c_k s)))%Z end.
Lemma recv_snapshot_ok s now ts rs some s' : recv_snapshot s now ts rs some = Ok s' →
  ((¬ ∃ ls, translates s rs ls) ∧ s' = s) ∨
  ∃ ls us, translates s rs ls ∧ NoDup us ∧ (∀ e, e ∈ us ↔ e ∈ ls ∧ ¬ owned s e) ∧
    let t := snapshot_instant s now ts in
    let late := (now - t > cx_dt (c_k s))%Z ∧ cx_extr (c_k s) = true in
    c_w s' = c_w s ∧ set_cx_pending (c_k s') [] = set_cx_pending (c_k s) [] ∧
    (late → requests_next s' = requests_next s ++ [(ls, t)] ∧
            c_out s' = c_out s ++ inputs_out us t (clock_difference s now ts)) ∧
    (¬ late → requests_next s' = requests_next s ∧
            c_out s' = c_out s ++ inputs_out us t (clock_difference s now ts) ++ (if some then [OSnap ls] else [])).
Proof.
  unfold recv_snapshot. destruct (existsb (unknown s) rs) eqn:Ex.
  { intros [= <-]. left. split; [|done]. intros (ls & H). apply translates_known in H. congruence. }
  intros H. right. set (ls := omap _ rs) in *. exists ls, (remove_dups (filter (λ e, e ∉ cx_owned (c_k s)) ls)).
  split; [by apply omap_translates|]. split; [apply NoDup_remove_dups|]. split.
  { intros e. rewrite elem_of_remove_dups, elem_of_list_filter. unfold owned. naive_solver. }
  cbv zeta. set (t := snapshot_instant s now ts).
  assert ((match cx_sync (c_k s) with
           | Some d => ((ts + d - cx_delay (c_k s))%Z, d)
           | None => ((now - (cx_hrtt (c_k s) + cx_delay (c_k s)))%Z, (now - (ts + cx_hrtt (c_k s)))%Z)
           end) = (t, clock_difference s now ts)) as Et.
  { unfold t, snapshot_instant, clock_difference. destruct (cx_sync (c_k s)); [done|]. f_equal. lia. }
  rewrite Et in H. clearbody t. set (us := remove_dups _) in *. clearbody us. set (d := clock_difference s now ts) in *. clearbody d.
  destruct (bool_decide_reflect (now - t > cx_dt (c_k s))%Z) as [Hl|Hl]; cbn [negb orb] in H.
  - destruct (cx_extr (c_k s)) eqn:Ee; cbn [negb orb] in H; injection H as <-.
    + split; [by destruct us|]. split; [by destruct us|]. split; [|intros []; done].
      intros _. destruct us; cbn; rewrite ?app_nil_r; done.
    + split; [by destruct us, some|]. split; [by destruct us, some|]. split; [intros [_ ?]; congruence|].
      intros _. destruct us, some; cbn; rewrite <- ?app_assoc, ?app_nil_r; done.
  - injection H as <-.
    split; [by destruct us, some|]. split; [by destruct us, some|]. split; [intros [? _]; done|].
    intros _. destruct us, some; cbn; rewrite <- ?app_assoc, ?app_nil_r; done.
Qed.
Lemma recv_snapshot_total s now ts rs some : ∃ s', recv_snapshot s now ts rs some = Ok s'.
Proof.
  unfold recv_snapshot. destruct (existsb _ _); [eauto|]. destruct (match cx_sync _ with Some d => _ | None => _ end).
  destruct (_ || _); eauto.
Qed.

(** *** Requests are sent in the order of arrival *)
Definition reqs (s : cst) : list (list nat * Z) := sent_requests (c_out s) ++ requests_next s.
Lemma plain_requests new : Forall (λ o, plain o = true) new → sent_requests new = [].
Proof. induction 1 as [|o new Ho _ IH]; [done|]. unfold sent_requests in *. cbn. rewrite IH. by destruct o. Qed.
Lemma pstep_pend s l s' : match l with LPend _ => False | _ => True end → pstep s l = Ok s' →
  cx_pending (c_k s') = cx_pending (c_k s).
Proof.
  intros Hl H. destruct l; cbn [pstep] in H; try done; try (by injection H as <-).
  - apply put_net_ok in H as (_ & _ & _ & _ & ->). by destruct (cx_importing (c_k s)).
  - by apply put_owner_ok in H as (_ & _ & _ & _ & [(_ & _ & ->)|(_ & ->)]).
  - reqd H. by injection H as <-.
  - by apply put_node_ok in H as (_ & _ & _ & _ & ->).
  - by apply put_edge_ok in H as (_ & _ & _ & _ & _ & _ & ->).
  - apply bind_ok in H as (s1 & H & H2). injection H2 as <-. cbn. by apply put_edge_ok in H as (_ & _ & _ & _ & _ & _ & ->).
  - by apply put_asset_ok in H as (_ & _ & ->).
  - by apply put_linked_ok in H as (_ & _ & ->).
  - by apply destroy_one_ok in H as (_ & _ & _ & _ & _ & _ & _ & _ & -> & _).
  - by apply on_map_ok in H as (m & _ & _ & _ & ->).
  - by apply on_map_ok in H as (m & _ & _ & _ & ->).
Qed.
Lemma opath_pend s s' : path ownlab s s' → cx_pending (c_k s') = cx_pending (c_k s).
Proof.
  intros P. apply (path_inv ownlab (λ x, cx_pending (c_k x) = cx_pending (c_k s))) in P; [done| |done].
  intros s1 l s2 Hl E H. rewrite <- E. eapply pstep_pend; [|exact H]. by destruct l.
Qed.
Lemma qpath_pend a b c d s s' : path (qlab a b c d) s s' → cx_pending (c_k s') = cx_pending (c_k s).
Proof.
  intros P. apply (path_inv (qlab a b c d) (λ x, cx_pending (c_k x) = cx_pending (c_k s))) in P; [done| |done].
  intros s1 l s2 Hl E H. rewrite <- E. eapply pstep_pend; [|exact H]. by destruct l.
Qed.
Lemma create_unknown_pend rs s s' ps : create_unknown s rs = Ok (s', ps) → cx_pending (c_k s') = cx_pending (c_k s).
Proof. intros H. eapply (qpath_pend true true true true), create_unknown_path; [|exact H]. done. Qed.
Lemma cstep_pend s o s' : o ≠ CUpdate → (∀ now ts rs some, o ≠ CSnapshot now ts rs some) → cstep s o = Ok s' →
  cx_pending (c_k s') = cx_pending (c_k s).
Proof.
  intros Hu Hs H. destruct o; cbn [cstep] in H.
  - by eapply opath_pend, ustep_opath.
  - done.
  - unfold recv_client in H. cbn [c_create] in H. apply bind_ok in H as (u & _ & H).
    apply bind_ok in H as (s2 & H2 & H). injection H as <-. apply on_map_ok in H2 as (m & _ & _ & _ & Ek). cbn. by rewrite Ek.
  - by eapply opath_pend, recv_map_opath.
  - apply recv_create_parts in H as (s1 & new & s3 & H1 & P & ->). cbn. rewrite (qpath_pend _ _ _ _ _ _ P).
    cbn. rewrite <- (create_unknown_pend _ _ _ _ H1). by destruct new.
  - apply recv_destroy_parts in H as (s1 & P & ->). cbn. rewrite (qpath_pend _ _ _ _ _ _ P). cbn. by rewrite notify_exited_eq.
  - apply recv_entered_parts in H as (s1 & ps & _ & P & ->). cbn. destruct ps; cbn; by rewrite (qpath_pend _ _ _ _ _ _ P).
  - by edestruct Hs.
  - apply bind_ok in H as (l & _ & H). by injection H as <-.
  - by injection H as <-.
  - by injection H as <-.
  - by injection H as <-.
Qed.
(** Each late snapshot becomes one request, sent with the next update. *)
Definition late (s : cst) (now ts : Z) : Prop :=
  (now - snapshot_instant s now ts > cx_dt (c_k s))%Z ∧ cx_extr (c_k s) = true.
Lemma cstep_reqs s o s' : cstep s o = Ok s' →
  reqs s' = reqs s ∨
  ∃ now ts rs some ls, o = CSnapshot now ts rs some ∧ translates s rs ls ∧ late s now ts ∧
    reqs s' = reqs s ++ [(ls, snapshot_instant s now ts)].
Proof.
  intros H. destruct (cop_update_dec o) as [->|Hn].
  { left. cbn [cstep] in H. apply c_update_ok in H as U. unfold reqs, requests_next. rewrite (u_p _ _ U), (u_out _ _ U), app_nil_r.
    rewrite !sent_requests_app. f_equal.
    assert (∀ (A : Type) (l : list A) o, sent_requests [o] = [] → sent_requests (some_out l o) = []) as So.
    { intros A l o E. by destruct l. }
    rewrite !So by done. cbn [app]. induction (cx_pending (c_k s)) as [|[es t] qs IH]; [done|].
    unfold sent_requests in *. cbn. by rewrite IH. }
  pose proof (cstep_apath _ _ _ Hn H) as P. apply apath_out in P as (new & Eo & F).
  assert (sent_requests (c_out s') = sent_requests (c_out s)) as Es.
  { rewrite Eo, sent_requests_app, (plain_requests _ F). by rewrite app_nil_r. }
  assert (∀ o, (∃ now ts rs some, o = CSnapshot now ts rs some) ∨ (∀ now ts rs some, o ≠ CSnapshot now ts rs some)) as Hd.
  { intros []; try (by right). left. eauto. }
  unfold reqs. rewrite Es. destruct (Hd o) as [(now & ts & rs & some & ->)|Hs].
  - cbn [cstep] in H. apply recv_snapshot_ok in H as [[_ ->]|(ls & us & T & _ & _ & _ & _ & Hl & Hnl)]; [by left|].
    destruct (decide (now - snapshot_instant s now ts > cx_dt (c_k s))%Z) as [H1|H1].
    + destruct (cx_extr (c_k s)) eqn:E.
      * right. exists now, ts, rs, some, ls. split; [done|]. split; [done|]. split; [done|].
        destruct Hl as [-> _]; [done|]. by rewrite app_assoc.
      * left. destruct Hnl as [-> _]; [naive_solver|done].
    + left. destruct Hnl as [-> _]; [naive_solver|done].
  - left. unfold requests_next. by rewrite (cstep_pend _ _ _ Hn Hs H).
Qed.

(** Reports of created and destroyed entities. *)
From Coq Require Import ZArith.
From Verif Require Import Outcome MapModel CliModel CliSpec CliProofs CliProofs2 CliProofs3.
Local Open Scope nat_scope.

(** ** One step *)
Lemma c_destroy_net s e s' : cx_importing (c_k s) = false → wfw (c_w s) → c_destroy s e = Ok s' →
  rep_c s' = rep_c s ∧
  (∃ new, rep_d s' = rep_d s ++ new ∧ NoDup new ∧ ∀ x, x ∈ new ↔ x ∈ cw_net (c_w s) ∧ x ∉ cw_alive (c_w s')).
Proof.
  intros Hi Hw H. unfold c_destroy in H. apply bind_ok in H as (u0 & _ & H). apply bind_ok in H as (s1 & H1 & H).
  assert (∃ es, NoDup es ∧ destroy_list s es = Ok s1) as (es & Hd & Hl).
  { case_bool_decide; [|exists []; split; [constructor|by injection H1 as <-]].
    eexists; split; [apply edges_at_nodup|exact H1]. }
  destruct (destroy_list_rep _ _ _ Hi Hd Hl) as (Hi1 & Hc & (new & Hn & Hdn & Hin) & Hnet & Hal).
  destruct (pstep_rep s1 (LKill e) s' I H) as [R1 R2]. rewrite app_nil_r in R1.
  apply destroy_one_ok in H as (Ew & _).
  split; [by rewrite R1, Hc|].
  exists (new ++ (if report s1 e then [e] else [])). split; [by rewrite R2, Hn, app_assoc|].
  assert (∀ x, x ∈ (if report s1 e then [e] else []) ↔ x = e ∧ x ∈ cw_net (c_w s) ∧ x ∉ es) as Hx.
  { intros x. unfold report. rewrite Hi1. cbn [negb]. rewrite andb_true_r.
    destruct (bool_decide_reflect (e ∈ cw_net (c_w s1))) as [Hc1|Hc1].
    - rewrite elem_of_list_singleton. apply Hnet in Hc1. naive_solver.
    - rewrite elem_of_nil. split; [done|]. intros (-> & ? & ?). apply Hc1, Hnet. done. }
  split.
  - apply NoDup_app. split; [done|]. split.
    + intros x Hx1 Hx2. apply Hx in Hx2. apply Hin in Hx1. naive_solver.
    + destruct (report s1 e); [apply NoDup_singleton|constructor].
  - intros x. rewrite elem_of_app, Hin, Hx, Ew. cbn. rewrite elem_of_difference, elem_of_singleton, Hal.
    split.
    + intros [[? ?]|(-> & ? & ?)]; naive_solver.
    + intros [Hx1 Hx2]. pose proof (wf_net _ Hw _ Hx1).
      destruct (decide (x ∈ es)); [by left|]. right. destruct (decide (x = e)); naive_solver.
Qed.
Lemma ustep_mono s u s' : (∀ e, u ≠ UDestroy e) → ustep s u = Ok s' →
  ∀ x, x ∈ cw_alive (c_w s) → x ∈ cw_alive (c_w s').
Proof.
  intros Hu H.
  assert (path (λ l, match l with LKill _ => False | _ => True end) s s') as P.
  { destruct u as [|e|e|e a b|e a b|e|a|a f]; cbn [ustep] in H.
    - by apply path_one with LNew.
    - by apply path_one with (LNet e).
    - by apply path_one with (LNode e).
    - by apply path_one with (LEdge e a b).
    - by apply path_one with (LManifold e a b).
    - by destruct (Hu e).
    - apply bind_ok in H as (r & _ & H). by apply path_one with (LEmit (OSync r)).
    - unfold link_asset in H. apply bind_ok in H as (es & He & H).
      apply bind_ok in H as ([s1 ps] & H1 & H). apply bind_ok in H as (s2 & H2 & H). injection H as <-.
      apply path_trans with (importing s true); [by apply path_one with (LImp true)|].
      apply path_trans with s1.
      { eapply path_mono; [|by eapply (link_entries_path false false true false)]. by intros []. }
      apply path_trans with s2; [by apply path_one with (LLinked a)|].
      apply path_trans with (importing s2 (cx_importing (c_k s))); [by apply path_one with (LImp (cx_importing (c_k s)))|].
      by apply path_one with (LEmit (OMap ps)). }
  intros x. revert P. apply (path_inv _ (λ s, x ∈ cw_alive (c_w s))). clear. intros s l s' Hl Hx H. destruct l; cbn [pstep] in H; try (by injection H as <-).
  - injection H as <-. cbn. set_solver.
  - by apply put_net_ok in H as (_ & _ & -> & _).
  - by apply put_owner_ok in H as (_ & _ & -> & _).
  - reqd H. by injection H as <-.
  - by apply put_node_ok in H as (_ & _ & -> & _).
  - by apply put_edge_ok in H as (_ & _ & _ & _ & -> & _).
  - apply bind_ok in H as (s1 & H & H2). injection H2 as <-. by apply put_edge_ok in H as (_ & _ & _ & _ & -> & _).
  - by apply put_asset_ok in H as (-> & _).
  - by apply put_linked_ok in H as (-> & _).
  - done.
  - by apply on_map_ok in H as (m & _ & -> & _).
  - by apply on_map_ok in H as (m & _ & -> & _).
Qed.
Lemma link_asset_rep s a f s' : cx_importing (c_k s) = false → link_asset s a f = Ok s' →
  rep_c s' = rep_c s ∧ rep_d s' = rep_d s.
Proof.
  intros Hi H. unfold link_asset in H. apply bind_ok in H as (es & He & H).
  apply bind_ok in H as ([s1 ps] & H1 & H). apply bind_ok in H as (s2 & H2 & H). injection H as <-.
  destruct (qpath_rep _ _ _ _ (importing s true) s1 (link_entries_path false false true false _ _ _ _ _ _ eq_refl H1) eq_refl) as [C1 D1].
  assert (path nolab s1 (emit (importing s2 (cx_importing (c_k s))) (OMap ps))) as P.
  { apply path_trans with s2; [by apply path_one with (LLinked a)|].
    apply path_trans with (importing s2 (cx_importing (c_k s))); [by apply path_one with (LImp (cx_importing (c_k s)))|].
    by apply path_one with (LEmit (OMap ps)). }
  destruct (npath_rep _ _ P) as [-> ->]. rewrite C1, D1. done.
Qed.
Lemma ustep_rep s u s' : cx_importing (c_k s) = false → wfw (c_w s) → ustep s u = Ok s' →
  rep_c s' = rep_c s ++ (match u with UTag e => [e] | _ => [] end) ∧
  (∃ new, rep_d s' = rep_d s ++ new ∧ NoDup new ∧ ∀ x, x ∈ new ↔ x ∈ cw_net (c_w s) ∧ x ∉ cw_alive (c_w s')).
Proof.
  intros Hi Hw H.
  assert ((∀ e, u ≠ UDestroy e) → rep_d s' = rep_d s →
    ∃ new, rep_d s' = rep_d s ++ new ∧ NoDup new ∧ ∀ x, x ∈ new ↔ x ∈ cw_net (c_w s) ∧ x ∉ cw_alive (c_w s')) as Hno.
  { intros Hu E. exists []. rewrite app_nil_r. split; [done|]. split; [constructor|].
    intros x. rewrite elem_of_nil. split; [done|]. intros [H1 H2]. apply H2.
    eapply ustep_mono; [exact Hu|exact H|]. by apply (wf_net _ Hw). }
  destruct u as [|e|e|e a b|e a b|e|a|a f]; rewrite ?app_nil_r.
  - destruct (pstep_rep s LNew s' I H) as [R1 R2]. rewrite app_nil_r in R1, R2. split; [done|]. by apply Hno.
  - destruct (pstep_rep s (LNet e) s' I H) as [R1 R2]. rewrite app_nil_r in R2. rewrite Hi in R1.
    split; [done|]. by apply Hno.
  - destruct (pstep_rep s (LNode e) s' I H) as [R1 R2]. rewrite app_nil_r in R1, R2. split; [done|]. by apply Hno.
  - destruct (pstep_rep s (LEdge e a b) s' I H) as [R1 R2]. rewrite app_nil_r in R1, R2. split; [done|]. by apply Hno.
  - destruct (pstep_rep s (LManifold e a b) s' I H) as [R1 R2]. rewrite app_nil_r in R1, R2. split; [done|]. by apply Hno.
  - by apply c_destroy_net in H.
  - cbn [ustep] in H. pose proof H as H'. apply bind_ok in H as (r & _ & H).
    destruct (pstep_rep s (LEmit (OSync r)) s' eq_refl H) as [R1 R2]. rewrite app_nil_r in R1, R2. split; [done|]. by apply Hno.
  - cbn [ustep] in H. destruct (link_asset_rep _ _ _ _ Hi H) as [R1 R2]. split; [done|]. by apply Hno.
Qed.
Lemma update_rep s s' : c_update s = Ok s' → rep_c s' = rep_c s ∧ rep_d s' = rep_d s.
Proof.
  intros U%c_update_ok. unfold rep_c, rep_d. rewrite (u_cc _ _ U), (u_cd _ _ U), (u_out _ _ U), !app_nil_r.
  rewrite !sent_created_app, !sent_destroyed_app.
  assert (∀ qs, sent_created ((λ q : list nat * Z, ORequest q.1 q.2) <$> qs) = []) as ->.
  { induction qs; [done|]. unfold sent_created in *. cbn. done. }
  assert (∀ qs, sent_destroyed ((λ q : list nat * Z, ORequest q.1 q.2) <$> qs) = []) as ->.
  { induction qs; [done|]. unfold sent_destroyed in *. cbn. done. }
  destruct (cx_ccreated (c_k s)), (cx_cdestroyed (c_k s)), (made s), (cx_destroyed (c_k s));
    cbn; rewrite ?app_nil_r; done.
Qed.
(** Only the user's own actions are reported. *)
Lemma cstep_rep_other s o s' : (∀ u, o ≠ CUser u) → cx_importing (c_k s) = false → cstep s o = Ok s' →
  rep_c s' = rep_c s ∧ rep_d s' = rep_d s.
Proof.
  intros Hu Hi H. destruct o; cbn [cstep] in H.
  - by destruct (Hu o).
  - by apply update_rep.
  - by eapply npath_rep, recv_client_npath.
  - by eapply npath_rep, recv_map_npath.
  - apply recv_create_parts in H as (s1 & new & s3 & H1 & H3 & ->).
    destruct (npath_rep _ _ (create_unknown_npath _ _ _ _ H1)) as [C1 D1].
    destruct (qpath_rep _ _ _ _ _ _ H3 eq_refl) as [C3 D3].
    rewrite <- C1, <- D1. unfold rep_c, rep_d in *. cbn [importing set_k c_out c_k cx_ccreated cx_cdestroyed set_cx_importing] in *.
    rewrite C3, D3. destruct new; [done|]. cbn [emit c_out c_k].
    rewrite sent_created_app, sent_destroyed_app. cbn. by rewrite !app_nil_r.
  - apply recv_destroy_parts in H as (s1 & H1 & ->).
    destruct (npath_rep _ _ (notify_exited_npath s rs)) as [C1 D1].
    destruct (qpath_rep _ _ _ _ _ _ H1 eq_refl) as [C3 D3].
    rewrite <- C1, <- D1. done.
  - apply recv_entered_parts in H as (s1 & ps & _ & H1 & ->).
    destruct (qpath_rep _ _ _ _ _ _ H1 eq_refl) as [C3 D3].
    unfold rep_c, rep_d in *. cbn [importing set_k c_out c_k cx_ccreated cx_cdestroyed set_cx_importing] in *.
    rewrite <- C3, <- D3. destruct ps; [done|]. cbn [emit c_out c_k].
    rewrite sent_created_app, sent_destroyed_app. cbn. by rewrite !app_nil_r.
  - by eapply npath_rep, recv_snapshot_npath.
  - apply bind_ok in H as (l & _ & H). injection H as <-.
    destruct (pstep_rep s (LEmit (OInst l)) _ eq_refl eq_refl) as [R1 R2]. by rewrite !app_nil_r in *.
  - by injection H as <-.
  - by injection H as <-.
  - by injection H as <-.
Qed.

(** ** Each at most once *)
Record once (s : cst) : Prop := {
  o_c : ∀ e, e ∈ rep_c s → e < cw_next (c_w s) ∧ (e ∈ cw_alive (c_w s) → e ∈ cw_net (c_w s));
  o_d : ∀ e, e ∈ rep_d s → e < cw_next (c_w s) ∧ e ∉ cw_alive (c_w s);
  o_cn : NoDup (rep_c s);
  o_dn : NoDup (rep_d s)
}.
Lemma pstep_once s l s' : wfw (c_w s) → alab l → pstep s l = Ok s' → once s → once s'.
Proof.
  intros Hw Hl H O. destruct (pstep_rep _ _ _ Hl H) as [RC RD].
  assert ((∀ e, l ≠ LNet e ∧ l ≠ LKill e ∧ l ≠ LNew) → cw_alive (c_w s') = cw_alive (c_w s) →
    cw_next (c_w s') = cw_next (c_w s) → cw_net (c_w s') = cw_net (c_w s) → once s') as Hf.
  { intros Hn E1 E2 E3. destruct O as [A B C D].
    assert (rep_c s' = rep_c s ∧ rep_d s' = rep_d s) as [Ec Ed].
    { rewrite RC, RD. destruct l; rewrite ?app_nil_r; try done; destruct (Hn e) as (? & ? & ?); done. }
    by split; rewrite ?Ec, ?Ed, ?E1, ?E2, ?E3. }
  destruct l; cbn [pstep] in H; try (injection H as <-; by apply Hf).
  - injection H as <-. destruct O as [A B C D]. cbn iota in RC, RD. rewrite app_nil_r in RC, RD.
    split; rewrite ?RC, ?RD; try done; intros e He; cbn.
    + destruct (A e He) as [A1 A2]. split; [lia|]. intros [->%elem_of_singleton|?]%elem_of_union; [lia|auto].
    + destruct (B e He) as [B1 B2]. split; [lia|]. intros [->%elem_of_singleton|?]%elem_of_union; [lia|auto].
  - apply put_net_ok in H as (Ha & Hn & Ew & _). rewrite app_nil_r in RD. destruct O as [A B C D].
    split; rewrite ?RC, ?RD, ?Ew; cbn; try done.
    + intros x [Hx|Hx]%elem_of_app.
      * destruct (A x Hx). split; [done|]. intros ?. apply elem_of_union. auto.
      * destruct (cx_importing (c_k s)); [by apply elem_of_nil in Hx|]. apply elem_of_list_singleton in Hx as ->.
        split; [by apply (wf_next _ Hw)|]. intros _. set_solver.
    + apply NoDup_app. split; [done|]. destruct (cx_importing (c_k s)).
      * split; [|constructor]. intros ? _ ?%elem_of_nil. done.
      * split; [|apply NoDup_singleton]. intros x Hx ->%elem_of_list_singleton. apply Hn, (A _ Hx), Ha.
  - apply put_owner_ok in H as (_ & _ & Ew & _). by apply Hf; rewrite ?Ew.
  - reqd H. injection H as <-. by apply Hf.
  - apply put_node_ok in H as (_ & _ & Ew & _). by apply Hf; rewrite ?Ew.
  - apply put_edge_ok in H as (_ & _ & _ & _ & Ew & _). by apply Hf; rewrite ?Ew.
  - apply bind_ok in H as (s1 & H & H2). injection H2 as <-. apply put_edge_ok in H as (_ & _ & _ & _ & Ew & _).
    by apply Hf; cbn; rewrite ?Ew.
  - apply put_asset_ok in H as (Ew & _). by apply Hf; rewrite ?Ew.
  - apply put_linked_ok in H as (Ew & _). by apply Hf; rewrite ?Ew.
  - apply destroy_one_ok in H as (Ew & _). rewrite app_nil_r in RC. destruct O as [A B C D].
    split; rewrite ?RC, ?RD, ?Ew; cbn; try done.
    + intros x Hx. destruct (A x Hx). split; [done|]. rewrite !elem_of_difference. naive_solver.
    + intros x [Hx|Hx]%elem_of_app.
      * destruct (B x Hx). split; [done|]. rewrite elem_of_difference. naive_solver.
      * unfold report in Hx. case_bool_decide as Hn; [|by apply elem_of_nil in Hx].
        destruct (negb _); cbn in Hx; [|by apply elem_of_nil in Hx]. apply elem_of_list_singleton in Hx as ->.
        split; [by apply (wf_next _ Hw), (wf_net _ Hw)|]. rewrite elem_of_difference, elem_of_singleton. naive_solver.
    + apply NoDup_app. split; [done|]. unfold report. case_bool_decide as Hn; cbn [andb].
      * destruct (negb _); [|split; [by intros ? _ ?%elem_of_nil|constructor]].
        split; [|apply NoDup_singleton]. intros x Hx ->%elem_of_list_singleton. by apply (B _ Hx), (wf_net _ Hw).
      * split; [by intros ? _ ?%elem_of_nil|constructor].
  - apply on_map_ok in H as (m & _ & Ew & _). by apply Hf; rewrite ?Ew.
  - apply on_map_ok in H as (m & _ & Ew & _). by apply Hf; rewrite ?Ew.
Qed.
Lemma cstep_once s o s' : wfw (c_w s) ∧ once s → cstep s o = Ok s' → wfw (c_w s') ∧ once s'.
Proof.
  intros K H. destruct (cop_update_dec o) as [->|Hn].
  - cbn [cstep] in H. destruct (update_rep _ _ H) as [Ec Ed]. apply c_update_ok in H as U. destruct K as [W [A B C D]]. split.
    + change (c_w s') with (c_w (set_w (set_k s (set_cx_owned (c_k s) (cx_owned (c_k s')))) (c_w s'))).
      eapply (path_inv alab (λ s, wfw (c_w s))); [|exact (u_path _ _ U)|exact W]. intros; eapply pstep_wfw; eauto.
    + by split; rewrite ?Ec, ?Ed, ?(u_alive _ _ U), ?(u_next _ _ U), ?(u_net _ _ U).
  - eapply (path_inv alab (λ s, wfw (c_w s) ∧ once s)); [|by eapply cstep_apath|exact K].
    intros s1 l s2 Hl [W1 O1] H1. split; [by eapply pstep_wfw|by eapply pstep_once].
Qed.
Lemma runs_once s0 os s : runs s0 os s → once s.
Proof.
  intros [(a & b & c & d & ->) H].
  eapply (crun_inv (λ s, wfw (c_w s) ∧ once s)); [|..|exact H].
  - apply cstep_once.
  - split; [apply (k_wf _ (cinit_wki _ _ _ _))|].
    split; cbn; try constructor; intros; by apply elem_of_nil in H0.
Qed.

(** ** The reports of an execution *)
Lemma step_of_snoc s0 os o' o s s' : step_of s0 (os ++ [o']) o s s' →
  step_of s0 os o s s' ∨ (o = o' ∧ runs s0 os s ∧ cstep s o = Ok s').
Proof.
  intros (os1 & os2 & E & H1 & H2). destruct os2 as [|x os2 _] using rev_ind.
  - apply app_inj_tail in E as [-> ->]. by right.
  - left. exists os1, os2. split; [|done].
    rewrite app_comm_cons, app_assoc in E. by apply app_inj_tail in E as [-> _].
Qed.
Lemma step_of_mono s0 os o' o s s' : step_of s0 os o s s' → step_of s0 (os ++ [o']) o s s'.
Proof. intros (os1 & os2 & -> & H). exists os1, (os2 ++ [o']). split; [|done]. by rewrite <- app_assoc. Qed.
Lemma runs_fun s0 os s1 s2 : runs s0 os s1 → runs s0 os s2 → s1 = s2.
Proof. intros [_ H1] [_ H2]. congruence. Qed.
Lemma cop_user_dec (o : cop) : (∃ u, o = CUser u) ∨ ∀ u, o ≠ CUser u.
Proof. destruct o; (by left; eauto) || (by right). Qed.
Lemma runs_reports s0 os s : runs s0 os s →
  (∀ e, e ∈ rep_c s ↔ user_tagged os e) ∧ (∀ e, e ∈ rep_d s ↔ user_destroyed s0 os e).
Proof.
  revert os s. apply runs_ind'.
  - intros (a & b & c & d & ->). split; intros e.
    + split; [by intros ?%elem_of_nil|]. unfold user_tagged. by intros ?%elem_of_nil.
    + split; [by intros ?%elem_of_nil|]. intros (u & s & s' & (os1 & os2 & E & _) & _). by destruct os1.
  - intros os o s s' Hr [Hc Hd] H.
    pose proof (runs_imp _ _ _ Hr) as Hi. pose proof (runs_wfw _ _ _ Hr) as Hw.
    destruct (cop_user_dec o) as [[u ->]|Hn].
    + destruct (ustep_rep _ _ _ Hi Hw H) as [RC (new & RD & _ & Hnew)]. split; intros e.
      * rewrite RC, elem_of_app, Hc. unfold user_tagged. rewrite elem_of_app, elem_of_list_singleton.
        destruct u; rewrite ?elem_of_list_singleton, ?elem_of_nil; naive_solver.
      * rewrite RD, elem_of_app, Hd, Hnew. split.
        { intros [(u' & s1 & s2 & Hs & ?)|[? ?]].
          - exists u', s1, s2. split; [by apply step_of_mono|done].
          - exists u, s, s'. split; [|done]. exists os, []. done. }
        { intros (u' & s1 & s2 & Hs & ? & ?). apply step_of_snoc in Hs as [Hs|([= ->] & Hr' & H')].
          - left. exists u', s1, s2. done.
          - right. pose proof (runs_fun _ _ _ _ Hr Hr') as <-. rewrite H in H'. injection H' as <-. done. }
    + destruct (cstep_rep_other _ _ _ Hn Hi H) as [-> ->]. split; intros e.
      * rewrite Hc. unfold user_tagged. rewrite elem_of_app, elem_of_list_singleton. split; [by left|].
        intros [?|E]; [done|]. by destruct (Hn (UTag e)).
      * rewrite Hd. split.
        { intros (u' & s1 & s2 & Hs & ?). exists u', s1, s2. split; [by apply step_of_mono|done]. }
        { intros (u' & s1 & s2 & Hs & ?). apply step_of_snoc in Hs as [Hs|(E & _)]; [|by destruct (Hn u')].
          exists u', s1, s2. done. }
Qed.

(** A destruction is reported after the creation. *)
Definition ordered (s : cst) : Prop := ∀ o1 es o2 e,
  c_out s = o1 ++ ODestroy es :: o2 → e ∈ es → e ∈ rep_c s → e ∈ sent_created o1.
Lemma out_snoc_split (os : list cout) (x y : cout) o1 o2 :
  os ++ [x] = o1 ++ y :: o2 → (o2 = [] ∧ os = o1 ∧ x = y) ∨ ∃ o2', o2 = o2' ++ [x] ∧ os = o1 ++ y :: o2'.
Proof.
  destruct o2 as [|z o2 _] using rev_ind; intros E.
  - apply app_inj_tail in E as [-> ->]. by left.
  - right. rewrite app_comm_cons, app_assoc in E. apply app_inj_tail in E as [-> ->]. eauto.
Qed.
Lemma sent_destroyed_in o1 es o2 e : e ∈ es → e ∈ sent_destroyed (o1 ++ ODestroy es :: o2).
Proof. intros H. rewrite sent_destroyed_app. apply elem_of_app. right. cbn. apply elem_of_app. by left. Qed.
(** A list of outputs without destruction reports splits nowhere new. *)
Lemma ordered_grow s s' new :
  ordered s → c_out s' = c_out s ++ new → (∀ es, ODestroy es ∉ new) →
  (∀ e, e ∈ sent_destroyed (c_out s) → e ∈ rep_c s' → e ∈ rep_c s) → ordered s'.
Proof.
  intros O E Hn Hr o1 es o2 e E2 He Hc. rewrite E in E2. revert o2 E2. clear E.
  induction new as [|x new IH] using rev_ind; intros o2 E2.
  - rewrite app_nil_r in E2. eapply O; [exact E2|done|]. apply Hr; [|done]. rewrite E2. by apply sent_destroyed_in.
  - rewrite app_assoc in E2. apply out_snoc_split in E2 as [(-> & _ & ->)|(o2' & -> & E2)].
    + destruct (Hn es). apply elem_of_app. right. apply elem_of_list_singleton. done.
    + eapply IH; [|exact E2]. intros es' Hes. apply (Hn es'). apply elem_of_app. by left.
Qed.
Lemma pstep_out s l s' : pstep s l = Ok s' → c_out s' = c_out s ++ (match l with LEmit o => [o] | _ => [] end).
Proof.
  intros H. destruct l; cbn [pstep] in H; rewrite ?app_nil_r; try (by injection H as <-).
  - by apply put_net_ok in H as (_ & _ & _ & -> & _).
  - by apply put_owner_ok in H as (_ & _ & _ & -> & _).
  - reqd H. by injection H as <-.
  - by apply put_node_ok in H as (_ & _ & _ & -> & _).
  - by apply put_edge_ok in H as (_ & _ & _ & _ & _ & -> & _).
  - apply bind_ok in H as (s1 & H & H2). injection H2 as <-. cbn. by apply put_edge_ok in H as (_ & _ & _ & _ & _ & -> & _).
  - by apply put_asset_ok in H as (_ & -> & _).
  - by apply put_linked_ok in H as (_ & -> & _).
  - by apply destroy_one_ok in H as (_ & -> & _).
  - by apply on_map_ok in H as (m & _ & _ & -> & _).
  - by apply on_map_ok in H as (m & _ & _ & -> & _).
Qed.
(** Outside an update only plain outputs are sent. *)
Lemma apath_out s s' : path alab s s' → ∃ new, c_out s' = c_out s ++ new ∧ Forall (λ o, plain o = true) new.
Proof.
  intros P.
  apply (path_inv alab (λ x, ∃ new, c_out x = c_out s ++ new ∧ Forall (λ o, plain o = true) new)) in P; [done|..].
  - intros s1 l s2 Hl (new & E & F) H. apply pstep_out in H. rewrite E, <- app_assoc in H.
    eexists. split; [exact H|]. apply Forall_app. split; [done|]. destruct l; constructor; try constructor. done.
  - exists []. rewrite app_nil_r. split; [done|constructor].
Qed.
Lemma runs_ordered s0 os s : runs s0 os s → ordered s.
Proof.
  revert os s. apply runs_ind'.
  - intros (a & b & c & d & ->) o1 es o2 e E. by destruct o1.
  - intros os o s s' Hr O H. pose proof (runs_once _ _ _ Hr) as On.
    pose proof (runs_once _ _ _ (runs_snoc _ _ _ _ _ Hr H)) as On'.
    destruct (cop_update_dec o) as [->|Hn].
    + cbn [cstep] in H. destruct (update_rep _ _ H) as [Ec Ed]. apply c_update_ok in H as U.
      set (s1 := CSt (c_w s) (set_cx_ccreated (c_k s) []) (c_out s ++ some_out (cx_ccreated (c_k s)) (OCreate (cx_ccreated (c_k s))))).
      assert (rep_c s1 = rep_c s) as Ec1.
      { unfold rep_c, s1. cbn [c_out c_k set_cx_ccreated cx_ccreated]. rewrite sent_created_app, app_nil_r.
        f_equal. destruct (cx_ccreated (c_k s)); [done|]. cbn. by rewrite app_nil_r. }
      assert (ordered s1) as O1.
      { eapply ordered_grow; [exact O|done|..].
        - intros es. destruct (cx_ccreated (c_k s)); [apply not_elem_of_nil|].
          by intros ?%elem_of_list_singleton.
        - intros e _. by rewrite Ec1. }
      assert (sent_created (c_out s1) = rep_c s) as Eall.
      { rewrite <- Ec1. unfold rep_c. cbn [c_k s1 set_cx_ccreated cx_ccreated]. by rewrite app_nil_r. }
      set (s2 := CSt (c_w s) (c_k s1) (c_out s1 ++ some_out (cx_cdestroyed (c_k s)) (ODestroy (cx_cdestroyed (c_k s))))).
      assert (rep_c s2 = rep_c s) as Ec2.
      { rewrite <- Ec1. unfold rep_c, s2. cbn [c_out c_k]. rewrite sent_created_app.
        destruct (cx_cdestroyed (c_k s)); cbn; by rewrite !app_nil_r. }
      assert (ordered s2) as O2.
      { intros o1 es o2 e E He Hc. unfold s2 in E. cbn [c_out] in E. rewrite Ec2 in Hc.
        destruct (cx_cdestroyed (c_k s)) eqn:Ecd; cbn [some_out] in E.
        - rewrite app_nil_r in E. eapply O1; [exact E|done|]. by rewrite Ec1.
        - apply out_snoc_split in E as [(-> & <- & _)|(o2' & -> & E)].
          + by rewrite Eall.
          + eapply O1; [exact E|done|]. by rewrite Ec1. }
      eapply (ordered_grow s2); [exact O2| | |].
      * rewrite (u_out _ _ U). unfold s2, s1. cbn [c_out]. rewrite <- !app_assoc. reflexivity.
      * intros es. rewrite !elem_of_app, elem_of_list_fmap.
        intros [Hx|[Hx|(q & Hx & _)]]; [| |done].
        { destruct (made s); [by apply elem_of_nil in Hx|]. by apply elem_of_list_singleton in Hx. }
        { destruct (cx_destroyed (c_k s)); [by apply elem_of_nil in Hx|]. by apply elem_of_list_singleton in Hx. }
      * intros e _. by rewrite Ec, Ec2.
    + apply cstep_apath in H as P; [|done]. apply apath_out in P as (new & E & F).
      eapply ordered_grow; [exact O|exact E|..].
      * intros es Hes. rewrite Forall_forall in F. by apply F in Hes.
      * intros e He Hc. destruct (cop_user_dec o) as [[u ->]|Hnu].
        { destruct (ustep_rep _ _ _ (runs_imp _ _ _ Hr) (runs_wfw _ _ _ Hr) H) as [RC _]. rewrite RC in Hc.
          apply elem_of_app in Hc as [?|Hc]; [done|]. destruct u; try (by apply elem_of_nil in Hc).
          apply elem_of_list_singleton in Hc as ->. cbn [cstep ustep] in H.
          apply put_net_ok in H as (Ha & _). exfalso.
          assert (e0 ∈ rep_d s) as Hd by (apply elem_of_app; by left). by apply (o_d _ On) in Hd as [_ ?]. }
        { destruct (cstep_rep_other _ _ _ Hnu (runs_imp _ _ _ Hr) H) as [RC _]. by rewrite RC in Hc. }
Qed.

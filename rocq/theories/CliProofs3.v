(** Updates of the client, what it reports, and the worker. *)
From Coq Require Import ZArith.
From Verif Require Import Outcome MapModel CliModel CliSpec CliProofs CliProofs2.
Local Open Scope nat_scope.

(** ** One update *)
Definition some_out {A} (l : list A) (o : cout) : list cout := match l with [] => [] | _ => [o] end.
(** The state after an update: the owners are assigned, the outputs are sent,
    the lists are empty. *)
Record updated (s s' : cst) : Prop := {
  u_alive : cw_alive (c_w s') = cw_alive (c_w s);
  u_next : cw_next (c_w s') = cw_next (c_w s);
  u_net : cw_net (c_w s') = cw_net (c_w s);
  u_node : cw_node (c_w s') = cw_node (c_w s);
  u_edge : cw_edge (c_w s') = cw_edge (c_w s);
  u_man : cw_man (c_w s') = cw_man (c_w s);
  u_map : cx_map (c_k s') = cx_map (c_k s);
  u_me : cx_me (c_k s') = cx_me (c_k s);
  u_imp : cx_importing (c_k s') = cx_importing (c_k s);
  u_c : cx_created (c_k s') = [];
  u_d : cx_destroyed (c_k s') = [];
  u_cc : cx_ccreated (c_k s') = [];
  u_cd : cx_cdestroyed (c_k s') = [];
  u_p : cx_pending (c_k s') = [];
  u_path : path alab s (set_w (set_k s (set_cx_owned (c_k s) (cx_owned (c_k s')))) (c_w s'));
  u_alivec : Forall (λ e, e ∈ cw_alive (c_w s)) (cx_ccreated (c_k s));
  u_out : c_out s' = c_out s ++
    some_out (cx_ccreated (c_k s)) (OCreate (cx_ccreated (c_k s))) ++
    some_out (cx_cdestroyed (c_k s)) (ODestroy (cx_cdestroyed (c_k s))) ++
    some_out (made s) (OWCreate (made s) (filter (λ e, e ∈ cx_owned (c_k s')) (made s))) ++
    some_out (cx_destroyed (c_k s)) (OWDestroy (cx_destroyed (c_k s))) ++
    ((λ q, ORequest q.1 q.2) <$> cx_pending (c_k s))
}.
Lemma insert_owner_ok s es s1 : insert_owner s es = Ok s1 →
  ∃ ow os, s1 = set_w (set_k s (set_cx_owned (c_k s) os)) (set_cw_owner (c_w s) ow) ∧
    Forall (λ e, e ∈ cw_alive (c_w s)) es.
Proof.
  revert s. induction es as [|e es IH]; intros s H; cbn [insert_owner] in H.
  - injection H as <-. exists (cw_owner (c_w s)), (cx_owned (c_k s)). split; [|constructor]. by destruct s as [[] [] ?].
  - apply bind_ok in H as (s2 & H1 & H). apply IH in H as (ow & os & -> & F).
    apply put_owner_ok in H1 as (Ha & _ & Ew & Eo & Ek).
    exists ow, os. destruct s2 as [w2 k2 o2]; cbn in *. subst w2 o2. split.
    + unfold set_w, set_k; cbn. f_equal. destruct Ek as [(_ & _ & ->)|(_ & ->)]; [|done]. by destruct (c_k s).
    + constructor; [done|]. exact F.
Qed.
Lemma upd_cdestroyed_eq s : upd_cdestroyed s = CSt (c_w s) (set_cx_cdestroyed (c_k s) [])
  (c_out s ++ some_out (cx_cdestroyed (c_k s)) (ODestroy (cx_cdestroyed (c_k s)))).
Proof.
  destruct s as [w [? ? ? ? ? ? l] o]. unfold upd_cdestroyed. cbn. destruct l; cbn; by rewrite ?app_nil_r.
Qed.
Lemma upd_destroyed_eq s : upd_destroyed s = CSt (c_w s) (set_cx_destroyed (c_k s) [])
  (c_out s ++ some_out (cx_destroyed (c_k s)) (OWDestroy (cx_destroyed (c_k s)))).
Proof.
  destruct s as [w [? ? ? ? l] o]. unfold upd_destroyed. cbn. destruct l; cbn; by rewrite ?app_nil_r.
Qed.
Lemma c_update_ok s s' : c_update s = Ok s' → updated s s'.
Proof.
  unfold c_update. intros H. apply bind_ok in H as (s1 & H1 & H). injection H as <-.
  assert (∃ s0, insert_owner s (cx_ccreated (c_k s)) = Ok s0 ∧
    s1 = CSt (c_w s0) (set_cx_ccreated (c_k s0) [])
           (c_out s0 ++ some_out (cx_ccreated (c_k s)) (OCreate (cx_ccreated (c_k s))))) as (s0 & H0 & ->).
  { unfold upd_ccreated in H1. destruct (cx_ccreated (c_k s)) as [|e es] eqn:E.
    - injection H1 as <-. exists s. split; [done|]. cbn. rewrite app_nil_r, <- E. by destruct s as [? [] ?].
    - apply bind_ok in H1 as (s0 & H0 & H1). injection H1 as <-. exists s0. done. }
  clear H1. pose proof (insert_owner_apath _ _ _ H0) as HP.
  apply insert_owner_ok in H0 as (ow & os & -> & F). cbn [c_w c_k c_out set_w set_k].
  set (k1 := set_cx_ccreated _ []).
  match goal with |- updated _ (upd_requests (upd_destroyed (upd_created (upd_cdestroyed ?x)))) => set (s1 := x) end.
  assert (upd_cdestroyed s1 = CSt (c_w s1) (set_cx_cdestroyed k1 [])
    (c_out s1 ++ some_out (cx_cdestroyed (c_k s)) (ODestroy (cx_cdestroyed (c_k s))))) as E2.
  { rewrite upd_cdestroyed_eq. done. }
  rewrite E2. set (s2 := CSt _ _ _).
  assert (upd_created s2 = CSt (c_w s2) (set_cx_created (c_k s2) [])
    (c_out s2 ++ some_out (made s) (OWCreate (made s) (filter (λ e, e ∈ os) (made s))))) as E3.
  { unfold upd_created. change (filter _ (cx_created (c_k s2))) with (made s).
    destruct (made s); cbn; [by rewrite app_nil_r|done]. }
  rewrite E3. set (s3 := CSt _ _ _).
  assert (upd_destroyed s3 = CSt (c_w s3) (set_cx_destroyed (c_k s3) [])
    (c_out s3 ++ some_out (cx_destroyed (c_k s)) (OWDestroy (cx_destroyed (c_k s))))) as E4.
  { rewrite upd_destroyed_eq. done. }
  rewrite E4, upd_requests_eq. unfold s3, s2, s1, k1. cbn.
  split; cbn; try done. by rewrite <- !app_assoc.
Qed.
(** The invariants hold after an update. *)
Lemma update_wki s s' : c_update s = Ok s' → wki s →
  wki s' ∧ ∀ e, e ∈ worker (c_out s') ↔ simulated s' e.
Proof.
  intros U%c_update_ok K.
  assert (wki (set_w (set_k s (set_cx_owned (c_k s) (cx_owned (c_k s')))) (c_w s'))) as K1.
  { eapply (path_inv alab wki); [|exact (u_path _ _ U)|exact K]. intros; eapply pstep_wki; eauto. }
  set (s1 := CSt (c_w s') (c_k s) (c_out s)).
  assert (wki s1) as K2. { eapply wki_frame; [exact K1|exact (k_wf _ K1)|done..]. }
  destruct (upd_worker _ K2) as [K3 W3].
  destruct (upd_created_rest s1) as [W1 Kk1]. destruct (upd_destroyed_rest (upd_created s1)) as [W2 Kk2].
  assert (worker (c_out s') = worker (c_out (upd_destroyed (upd_created s1)))) as EW.
  { rewrite upd_destroyed_worker, upd_created_worker, Kk1. cbn.
    assert (made s1 = made s) as ->.
    { unfold made, valid. cbn. by rewrite (u_alive _ _ U), (u_man _ _ U). }
    rewrite (u_out _ _ U).
    rewrite !app_assoc, worker_requests. unfold worker. rewrite !worker_from_app.
    assert (worker_from (worker_from (worker_from ∅ (c_out s))
      (some_out (cx_ccreated (c_k s)) (OCreate (cx_ccreated (c_k s)))))
      (some_out (cx_cdestroyed (c_k s)) (ODestroy (cx_cdestroyed (c_k s)))) = worker_from ∅ (c_out s)) as ->.
    { by destruct (cx_ccreated (c_k s)), (cx_cdestroyed (c_k s)). }
    assert (∀ w l, worker_from w (some_out (made s) (OWCreate (made s) l)) = w ∪ list_to_set (made s)) as ->.
    { intros w l. destruct (made s); cbn; [set_solver|done]. }
    destruct (cx_destroyed (c_k s)); cbn; [set_solver|done]. }
  split.
  - eapply wki_frame; [exact K3|..]; rewrite ?W2, ?W1, ?Kk2, ?Kk1; cbn; try done.
    + exact (k_wf _ K1).
    + by rewrite (u_c _ _ U).
    + by rewrite (u_d _ _ U).
  - intros e. rewrite EW, W3. unfold simulated. rewrite W2, W1. done.
Qed.

(** ** All executions *)
Lemma cinit_wki a b c d : wki (cinit a b c d).
Proof.
  assert (∀ (A : Type) (m : gmap nat A) e, m = ∅ → ¬ is_Some (m !! e)) as Hm.
  { intros A m e -> [x H]. by rewrite lookup_empty in H. }
  assert (∀ e : nat, e ∉ (∅ : gset nat)) as Hs by (intros e; apply not_elem_of_empty).
  assert (wfw (c_w (cinit a b c d))) as W.
  { split; cbn; intros e H; first [by apply Hs in H|by apply Hm in H]. }
  split; [done|..]; cbn.
  - intros e H. by apply Hs in H.
  - intros e [H|H]; [by apply Hs in H|by apply Hm in H].
  - intros e H. by apply elem_of_nil in H.
  - constructor.
  - intros e H. by apply elem_of_nil in H.
  - intros e H. by apply elem_of_nil in H.
  - intros e [H|[H|H]]; [by apply elem_of_nil in H|by apply elem_of_nil in H|by apply Hs in H].
Qed.
Lemma crun_app s os1 os2 s2 : crun s (os1 ++ os2) = Ok s2 ↔ ∃ s1, crun s os1 = Ok s1 ∧ crun s1 os2 = Ok s2.
Proof.
  revert s; induction os1 as [|o os1 IH]; intros s; cbn [crun app].
  - split; [by eauto|]. intros (? & [= ->] & ?); done.
  - rewrite bind_ok. setoid_rewrite bind_ok. setoid_rewrite IH. naive_solver.
Qed.
Lemma crun_inv (I : cst → Prop) s os s' :
  (∀ s o s', I s → cstep s o = Ok s' → I s') → I s → crun s os = Ok s' → I s'.
Proof.
  intros Hs. revert s. induction os as [|o os IH]; intros s Hi H; cbn [crun] in H.
  - by injection H as <-.
  - apply bind_ok in H as (s1 & H1 & H2). eauto.
Qed.
Lemma cop_update_dec (o : cop) : o = CUpdate ∨ o ≠ CUpdate.
Proof. destruct o; (by left) || (right; done). Qed.
Lemma cstep_wki s o s' : wki s → cstep s o = Ok s' → wki s'.
Proof.
  intros K H. destruct (cop_update_dec o) as [->|Hn].
  - by eapply update_wki.
  - eapply (path_inv alab wki); [|by eapply cstep_apath|exact K]. intros; eapply pstep_wki; eauto.
Qed.
Lemma runs_wki s0 os s : runs s0 os s → wki s.
Proof. intros [(a & b & c & d & ->) H]. eapply crun_inv; [|apply cinit_wki|exact H]. apply cstep_wki. Qed.
Lemma runs_wfw s0 os s : runs s0 os s → wfw (c_w s).
Proof. intros H. exact (k_wf _ (runs_wki _ _ _ H)). Qed.
Lemma cstep_bij s o s' : bij (cx_map (c_k s)) → cstep s o = Ok s' → bij (cx_map (c_k s')).
Proof.
  intros B H. destruct (cop_update_dec o) as [->|Hn].
  - apply c_update_ok in H. by rewrite (u_map _ _ H).
  - eapply (path_inv alab (λ s, bij (cx_map (c_k s)))); [|by eapply cstep_apath|exact B].
    intros; eapply pstep_bij; eauto.
Qed.
Lemma runs_bij s0 os s : runs s0 os s → bij (cx_map (c_k s)).
Proof.
  intros [(a & b & c & d & ->) H]. eapply (crun_inv (λ s, bij (cx_map (c_k s)))); [|..|exact H].
  - apply cstep_bij.
  - intros r l. cbn. by rewrite !lookup_empty.
Qed.
(** Between steps the client is not importing. *)
Lemma ustep_imp s o s' : ustep s o = Ok s' → cx_importing (c_k s') = cx_importing (c_k s).
Proof.
  assert (∀ s e s', destroy_one s e = Ok s' → cx_importing (c_k s') = cx_importing (c_k s)) as Hd.
  { intros ? ? ? H. by apply destroy_one_ok in H as (_ & _ & _ & _ & _ & _ & _ & H & _). }
  assert (∀ es s s', destroy_list s es = Ok s' → cx_importing (c_k s') = cx_importing (c_k s)) as Hl.
  { induction es as [|e es IH]; intros ? ? H; cbn [destroy_list] in H; [by injection H as <-|].
    apply bind_ok in H as (s1 & H1 & H2). etrans; [by eapply IH|by eapply Hd]. }
  intros H. destruct o as [|e|e|e a b|e a b|e|a|a f]; cbn [ustep] in H.
  - by injection H as <-.
  - apply put_net_ok in H as (_ & _ & _ & _ & ->). by destruct (cx_importing (c_k s)) eqn:E.
  - by apply put_node_ok in H as (_ & _ & _ & _ & ->).
  - by apply put_edge_ok in H as (_ & _ & _ & _ & _ & _ & ->).
  - apply bind_ok in H as (s1 & H1 & H). injection H as <-. cbn.
    by apply put_edge_ok in H1 as (_ & _ & _ & _ & _ & _ & ->).
  - unfold c_destroy in H. apply bind_ok in H as (? & _ & H). apply bind_ok in H as (s1 & H1 & H2).
    etrans; [by eapply Hd|]. case_bool_decide; [by eapply Hl|by injection H1 as <-].
  - apply bind_ok in H as (r & _ & H). by injection H as <-.
  - unfold link_asset in H. apply bind_ok in H as (es & He & H).
    apply bind_ok in H as ([s1 ps] & H1 & H). apply bind_ok in H as (s2 & H2 & H). by injection H as <-.
Qed.
Lemma on_map_imp s f s' : on_map s f = Ok s' → cx_importing (c_k s') = cx_importing (c_k s).
Proof. by intros (m & _ & _ & _ & ->)%on_map_ok. Qed.
Lemma cstep_imp s o s' : cx_importing (c_k s) = false → cstep s o = Ok s' → cx_importing (c_k s') = false.
Proof.
  intros Hi H. destruct o; cbn [cstep] in H.
  - by rewrite (ustep_imp _ _ _ H).
  - apply c_update_ok in H. by rewrite (u_imp _ _ H).
  - unfold recv_client in H. cbn in H. apply bind_ok in H as (? & _ & H). apply bind_ok in H as (s2 & H2 & H).
    apply bind_ok in H2 as (m & _ & H2). injection H2 as <-. by injection H as <-.
  - revert s Hi H. induction ps as [|[l r] ps IH]; intros s Hi H; cbn [recv_map] in H; [by injection H as <-|].
    apply bind_ok in H as (s1 & H1 & H). eapply IH; [|exact H].
    destruct (valid s l); [by rewrite (on_map_imp _ _ _ H1)|by injection H1 as <-].
  - by apply recv_create_parts in H as (s1 & new & s3 & _ & _ & ->).
  - by apply recv_destroy_parts in H as (s1 & _ & ->).
  - by apply recv_entered_parts in H as (s1 & ps & _ & _ & ->).
  - unfold recv_snapshot in H. destruct (existsb _ _); [by injection H as <-|].
    destruct (match cx_sync (c_k s) with Some d => _ | None => _ end) as [t d].
    set (un := remove_dups _) in H. destruct (_ || _); injection H as <-; by destruct un, some.
  - apply bind_ok in H as (l & _ & H). by injection H as <-.
  - by injection H as <-.
  - by injection H as <-.
  - by injection H as <-.
Qed.
Lemma runs_imp s0 os s : runs s0 os s → cx_importing (c_k s) = false.
Proof.
  intros [(a & b & c & d & ->) H]. eapply (crun_inv (λ s, cx_importing (c_k s) = false)); [|..|exact H].
  - apply cstep_imp.
  - done.
Qed.
Lemma runs_snoc s0 os o s s' : runs s0 os s → cstep s o = Ok s' → runs s0 (os ++ [o]) s'.
Proof.
  intros [H0 H] H1. split; [done|]. apply crun_app. exists s. split; [done|]. cbn [crun]. by rewrite H1.
Qed.
Lemma runs_ind' (I : list cop → cst → Prop) s0 :
  (start s0 → I [] s0) →
  (∀ os o s s', runs s0 os s → I os s → cstep s o = Ok s' → I (os ++ [o]) s') →
  ∀ os s, runs s0 os s → I os s.
Proof.
  intros H0 Hs os. induction os as [|o os IH] using rev_ind; intros s [Hst H].
  - injection H as <-. auto.
  - apply crun_app in H as (s1 & H1 & H2). cbn [crun] in H2. apply bind_ok in H2 as (s2 & H2 & [= <-]).
    eapply Hs; [by split|apply IH; by split|done].
Qed.

(** ** Reports to the server *)
Definition rep_c (s : cst) : list nat := sent_created (c_out s) ++ cx_ccreated (c_k s).
Definition rep_d (s : cst) : list nat := sent_destroyed (c_out s) ++ cx_cdestroyed (c_k s).
Lemma sent_created_app a b : sent_created (a ++ b) = sent_created a ++ sent_created b.
Proof. unfold sent_created. by rewrite fmap_app, concat_app. Qed.
Lemma sent_destroyed_app a b : sent_destroyed (a ++ b) = sent_destroyed a ++ sent_destroyed b.
Proof. unfold sent_destroyed. by rewrite fmap_app, concat_app. Qed.
Lemma sent_requests_app a b : sent_requests (a ++ b) = sent_requests a ++ sent_requests b.
Proof. unfold sent_requests. by rewrite fmap_app, concat_app. Qed.
Lemma announced_app a b : announced (a ++ b) = announced a ++ announced b.
Proof. unfold announced. by rewrite fmap_app, concat_app. Qed.

(** One change: what it adds to the reports. *)
Lemma pstep_rep s l s' : alab l → pstep s l = Ok s' →
  rep_c s' = rep_c s ++ (match l with LNet e => if cx_importing (c_k s) then [] else [e] | _ => [] end) ∧
  rep_d s' = rep_d s ++ (match l with LKill e => if report s e then [e] else [] | _ => [] end).
Proof.
  unfold rep_c, rep_d. intros Hl H. destruct l; cbn [pstep] in H; rewrite ?app_nil_r; try (injection H as <-; done).
  - apply put_net_ok in H as (_ & _ & _ & -> & ->). destruct (cx_importing (c_k s)); cbn; rewrite ?app_nil_r; [done|].
    by rewrite <- app_assoc.
  - by apply put_owner_ok in H as (_ & _ & _ & -> & [(_ & _ & ->)|(_ & ->)]).
  - reqd H. by injection H as <-.
  - by apply put_node_ok in H as (_ & _ & _ & -> & ->).
  - by apply put_edge_ok in H as (_ & _ & _ & _ & _ & -> & ->).
  - apply bind_ok in H as (s1 & H & H2). injection H2 as <-. cbn.
    by apply put_edge_ok in H as (_ & _ & _ & _ & _ & -> & ->).
  - by apply put_asset_ok in H as (_ & -> & ->).
  - by apply put_linked_ok in H as (_ & -> & ->).
  - apply destroy_one_ok in H as (_ & -> & _ & _ & _ & -> & -> & _). by rewrite app_assoc.
  - by apply on_map_ok in H as (m & _ & _ & -> & ->).
  - by apply on_map_ok in H as (m & _ & _ & -> & ->).
  - injection H as <-. cbn [emit c_out c_k]. rewrite sent_created_app, sent_destroyed_app. destruct o; cbn; rewrite ?app_nil_r; done.
Qed.
(** Nothing is reported while importing. *)
Lemma qpath_rep a b c d s s' : path (qlab a b c d) s s' → cx_importing (c_k s) = true →
  rep_c s' = rep_c s ∧ rep_d s' = rep_d s.
Proof.
  intros (ls & H & F). revert s H. induction F as [|l ls Hl F IH]; intros s H Hi.
  - by injection H as <-.
  - cbn [pruns] in H. apply bind_ok in H as (s1 & H1 & H2).
    assert (cx_importing (c_k s1) = true) as Hi1 by (eapply pstep_importing; eauto).
    destruct (IH _ H2 Hi1) as [-> ->]. destruct (pstep_rep _ _ _ (qlab_alab _ _ _ _ _ Hl) H1) as [-> ->].
    unfold report. rewrite Hi. cbn [negb]. destruct l; rewrite ?andb_false_r, ?app_nil_r; done.
Qed.
(** Nothing is reported by changes that neither tag nor destroy. *)
Lemma npath_rep s s' : path nolab s s' → rep_c s' = rep_c s ∧ rep_d s' = rep_d s.
Proof.
  intros (ls & H & F). revert s H. induction F as [|l ls Hl F IH]; intros s H.
  - by injection H as <-.
  - cbn [pruns] in H. apply bind_ok in H as (s1 & H1 & H2).
    destruct (IH _ H2) as [-> ->].
    assert (alab l) as Ha by by destruct l.
    destruct (pstep_rep _ _ _ Ha H1) as [-> ->]. destruct l; by rewrite ?app_nil_r.
Qed.
(** The networked entities a registry change takes away. *)
Lemma destroy_list_rep es s s' : cx_importing (c_k s) = false → NoDup es → destroy_list s es = Ok s' →
  cx_importing (c_k s') = false ∧ rep_c s' = rep_c s ∧
  (∃ new, rep_d s' = rep_d s ++ new ∧ NoDup new ∧ ∀ e, e ∈ new ↔ e ∈ es ∧ e ∈ cw_net (c_w s)) ∧
  (∀ e, e ∈ cw_net (c_w s') ↔ e ∈ cw_net (c_w s) ∧ e ∉ es) ∧
  (∀ e, e ∈ cw_alive (c_w s') ↔ e ∈ cw_alive (c_w s) ∧ e ∉ es).
Proof.
  intros Hi Hd. revert s Hi. induction Hd as [|e es Hne Hd IH]; intros s Hi H; cbn [destroy_list] in H.
  - injection H as <-. split; [done|]. split; [done|]. split.
    + exists []. rewrite app_nil_r. split; [done|]. split; [constructor|]. intros e. split; [by intros ?%elem_of_nil|by intros [?%elem_of_nil _]].
    + split; intros e; (split; [intros ?; split; [done|apply not_elem_of_nil]|by intros []]).
  - apply bind_ok in H as (s1 & H1 & H2).
    destruct (pstep_rep s (LKill e) s1 I H1) as [R1 R2]. rewrite app_nil_r in R1.
    apply destroy_one_ok in H1 as (Ew & _ & _ & _ & _ & _ & _ & Ei & _). rewrite Hi in Ei.
    destruct (IH s1 Ei H2) as (I2 & R3 & (new & R4 & D4 & N4) & N5 & A5).
    split; [done|]. split; [by rewrite R3, R1|]. split.
    + exists ((if report s e then [e] else []) ++ new). split; [by rewrite R4, R2, app_assoc|].
      assert (∀ x, x ∈ new ↔ x ∈ es ∧ x ∈ cw_net (c_w s)) as N6.
      { intros x. rewrite N4, Ew. cbn. rewrite elem_of_difference, elem_of_singleton. split; [naive_solver|].
        intros [? ?]. split; [done|]. split; [done|]. by intros ->. }
      unfold report. rewrite Hi. cbn [negb]. rewrite andb_true_r. split.
      * case_bool_decide; [|done]. cbn. constructor; [|done]. rewrite N6. naive_solver.
      * intros x. rewrite elem_of_app, N6. case_bool_decide as Hc; rewrite ?elem_of_cons, ?elem_of_nil;
          destruct (decide (x = e)); naive_solver.
    + split; intros x; rewrite ?N5, ?A5, Ew; cbn; rewrite elem_of_difference, elem_of_singleton, elem_of_cons; naive_solver.
Qed.
Lemma edges_at_nodup w e : NoDup (edges_at w e).
Proof.
  unfold edges_at. pose proof (NoDup_fst_map_to_list (cw_edge w)) as H. revert H.
  generalize (map_to_list (cw_edge w)). intros l. induction l as [|[d p] l IH]; intros H; [constructor|].
  cbn in H. apply NoDup_cons in H as [Hd H]. rewrite filter_cons. case_decide; [|by apply IH].
  cbn. apply NoDup_cons. split; [|by apply IH]. intros Hin. apply Hd.
  apply elem_of_list_fmap in Hin as (y & -> & Hy). apply elem_of_list_filter in Hy as [_ Hy].
  apply elem_of_list_fmap. eauto.
Qed.
Lemma edges_at_iff w e d : d ∈ edges_at w e ↔ ∃ a b, cw_edge w !! d = Some (a, b) ∧ (a = e ∨ b = e).
Proof.
  unfold edges_at. rewrite elem_of_list_fmap. split.
  - intros ([d' [a b]] & -> & H). apply elem_of_list_filter in H as [H1 H2]. apply elem_of_map_to_list in H2.
    exists a, b. done.
  - intros (a & b & H1 & H2). exists (d, (a, b)). split; [done|]. apply elem_of_list_filter.
    split; [done|]. by apply elem_of_map_to_list.
Qed.

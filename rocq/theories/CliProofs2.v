(** Effects of the small changes, and the invariants of the registry, the
    entity map and the worker's set of entities. *)
From Coq Require Import ZArith.
From Verif Require Import Outcome MapModel CliModel CliSpec CliProofs.
Local Open Scope nat_scope.

(** ** Effects *)
Lemma require_ok b (u : unit) : require_ b = Ok u → b = true.
Proof. by destruct b. Qed.
Ltac reqd H := let u := fresh "u" in let Hr := fresh "Hr" in
  apply bind_ok in H as (u & Hr & H); apply require_ok in Hr; clear u.

Lemma put_net_ok s e s' : put_net s e = Ok s' →
  e ∈ cw_alive (c_w s) ∧ e ∉ cw_net (c_w s) ∧
  c_w s' = set_cw_net (c_w s) ({[e]} ∪ cw_net (c_w s)) ∧ c_out s' = c_out s ∧
  c_k s' = if cx_importing (c_k s) then c_k s else set_cx_ccreated (c_k s) (cx_ccreated (c_k s) ++ [e]).
Proof.
  unfold put_net, on_construct_net. intros H. reqd H. injection H as <-.
  apply andb_true_iff in Hr as [Hv Hn]. unfold valid in Hv. apply bool_decide_eq_true in Hv, Hn.
  cbn. by destruct (cx_importing (c_k s)).
Qed.
Lemma put_owner_ok s e o s' : put_owner s e o = Ok s' →
  e ∈ cw_alive (c_w s) ∧ cw_owner (c_w s) !! e = None ∧
  c_w s' = set_cw_owner (c_w s) (<[e := o]> (cw_owner (c_w s))) ∧ c_out s' = c_out s ∧
  ((o = cx_me (c_k s) ∧ e ∉ cx_owned (c_k s) ∧ c_k s' = set_cx_owned (c_k s) ({[e]} ∪ cx_owned (c_k s))) ∨
   (o ≠ cx_me (c_k s) ∧ c_k s' = c_k s)).
Proof.
  unfold put_owner, on_construct_owner. intros H. reqd H.
  apply andb_true_iff in Hr as [Hv Hn]. unfold valid in Hv. apply bool_decide_eq_true in Hv, Hn.
  cbn in H. case_bool_decide as Ho.
  - reqd H. apply bool_decide_eq_true in Hr. injection H as <-. cbn. naive_solver.
  - injection H as <-. cbn. naive_solver.
Qed.
Lemma is_shared_true s e : is_shared s e = true ↔ e ∈ cw_node (c_w s) ∨ is_Some (cw_edge (c_w s) !! e).
Proof. unfold is_shared. rewrite orb_true_iff, !bool_decide_eq_true. done. Qed.
Lemma put_node_ok s e s' : put_node s e = Ok s' →
  e ∈ cw_alive (c_w s) ∧ is_shared s e = false ∧
  c_w s' = set_cw_node (c_w s) ({[e]} ∪ cw_node (c_w s)) ∧ c_out s' = c_out s ∧
  c_k s' = set_cx_created (c_k s) (cx_created (c_k s) ++ [e]).
Proof.
  unfold put_node, on_construct_shared. intros H. reqd H. injection H as <-.
  apply andb_true_iff in Hr as [Hv Hn]. unfold valid in Hv. apply bool_decide_eq_true in Hv.
  apply negb_true_iff in Hn. done.
Qed.
Lemma put_edge_ok s e a b s' : put_edge s e a b = Ok s' →
  e ∈ cw_alive (c_w s) ∧ is_shared s e = false ∧ a ∈ cw_node (c_w s) ∧ b ∈ cw_node (c_w s) ∧
  c_w s' = set_cw_edge (c_w s) (<[e := (a, b)]> (cw_edge (c_w s))) ∧ c_out s' = c_out s ∧
  c_k s' = set_cx_created (c_k s) (cx_created (c_k s) ++ [e]).
Proof.
  unfold put_edge, on_construct_shared. intros H. reqd H. reqd H. injection H as <-.
  apply andb_true_iff in Hr as [Hv Hn]. unfold valid in Hv. apply bool_decide_eq_true in Hv.
  apply negb_true_iff in Hn. apply andb_true_iff in Hr0 as [Ha Hb]. apply bool_decide_eq_true in Ha, Hb. done.
Qed.
Lemma put_asset_ok s e a s' : put_asset s e a = Ok s' →
  c_w s' = set_cw_asset (c_w s) (<[e := a]> (cw_asset (c_w s))) ∧ c_out s' = c_out s ∧ c_k s' = c_k s.
Proof. unfold put_asset. intros H. reqd H. by injection H as <-. Qed.
Lemma put_linked_ok s e s' : put_linked s e = Ok s' →
  c_w s' = set_cw_linked (c_w s) ({[e]} ∪ cw_linked (c_w s)) ∧ c_out s' = c_out s ∧ c_k s' = c_k s.
Proof. unfold put_linked. intros H. reqd H. by injection H as <-. Qed.
Lemma on_map_ok s f s' : on_map s f = Ok s' →
  ∃ m, f (cx_map (c_k s)) = Ok m ∧ c_w s' = c_w s ∧ c_out s' = c_out s ∧ c_k s' = set_cx_map (c_k s) m.
Proof. unfold on_map. intros H. apply bind_ok in H as (m & Hm & H). injection H as <-. by exists m. Qed.

(** registry.destroy of one entity, field by field *)
Definition report (s : cst) (e : nat) : bool :=
  bool_decide (e ∈ cw_net (c_w s)) && negb (cx_importing (c_k s)).
Lemma destroy_one_ok s e s' : destroy_one s e = Ok s' →
  c_w s' = strip (c_w s) e ∧ c_out s' = c_out s ∧
  cx_me (c_k s') = cx_me (c_k s) ∧ cx_created (c_k s') = cx_created (c_k s) ∧
  cx_destroyed (c_k s') = cx_destroyed (c_k s) ++ (if is_shared s e then [e] else []) ∧
  cx_ccreated (c_k s') = cx_ccreated (c_k s) ∧
  cx_cdestroyed (c_k s') = cx_cdestroyed (c_k s) ++ (if report s e then [e] else []) ∧
  cx_importing (c_k s') = cx_importing (c_k s) ∧ cx_pending (c_k s') = cx_pending (c_k s) ∧
  (cx_map (c_k s') = cx_map (c_k s) ∧ (report s e = true → em_map (cx_map (c_k s)) !! e = None) ∨
   report s e = true ∧ em_erase (cx_map (c_k s)) e = Ok (cx_map (c_k s'))) ∧
  ((cw_owner (c_w s) !! e = Some (cx_me (c_k s)) ∧ e ∈ cx_owned (c_k s) ∧
    cx_owned (c_k s') = cx_owned (c_k s) ∖ {[e]}) ∨
   (cw_owner (c_w s) !! e ≠ Some (cx_me (c_k s)) ∧ cx_owned (c_k s') = cx_owned (c_k s))).
Proof.
  unfold destroy_one. intros H. apply bind_ok in H as (s1 & H1 & H). apply bind_ok in H as (s2 & H2 & H).
  injection H as <-.
  assert (∃ x, s1 = set_k s (set_cx_owned (c_k s) x) ∧
    ((cw_owner (c_w s) !! e = Some (cx_me (c_k s)) ∧ e ∈ cx_owned (c_k s) ∧ x = cx_owned (c_k s) ∖ {[e]}) ∨
     (cw_owner (c_w s) !! e ≠ Some (cx_me (c_k s)) ∧ x = cx_owned (c_k s)))) as (x & -> & Hx).
  { assert (∀ s : cst, s = set_k s (set_cx_owned (c_k s) (cx_owned (c_k s)))) as Es.
    { by intros [? [] ?]. }
    destruct (cw_owner (c_w s) !! e) as [o|] eqn:Eo.
    - unfold on_destroy_owner in H1.
      destruct (bool_decide_reflect (o = cx_me (c_k s))) as [Ho|Ho].
      + reqd H1. apply bool_decide_eq_true in Hr. injection H1 as <-. eexists. split; [done|]. left.
        by rewrite Ho.
      + injection H1 as <-. eexists. split; [apply Es|]. right. naive_solver.
    - injection H1 as <-. eexists. split; [apply Es|]. right. naive_solver. }
  clear H1.
  assert (∃ m y, s2 = set_k s (set_cx_map (set_cx_cdestroyed (set_cx_owned (c_k s) x) y) m) ∧
    y = cx_cdestroyed (c_k s) ++ (if report s e then [e] else []) ∧
    (m = cx_map (c_k s) ∧ (report s e = true → em_map (cx_map (c_k s)) !! e = None) ∨
     report s e = true ∧ em_erase (cx_map (c_k s)) e = Ok m)) as (m & y & -> & -> & Hm).
  { unfold report. case_bool_decide as Hn; cbn [andb].
    - unfold on_destroy_net in H2. cbn in H2. destruct (cx_importing (c_k s)) eqn:Ei; cbn [negb].
      + injection H2 as <-. do 2 eexists. split; [|rewrite app_nil_r; split; [done|left; split; [done|by intros]]].
        by destruct s as [? [] ?].
      + apply bind_ok in H2 as (s3 & H3 & H2). injection H2 as <-.
        unfold em_contains in H3. case_bool_decide as Hc.
        * apply bind_ok in H3 as (m & Hm & H3). injection H3 as <-.
          exists m. eexists. split; [|split; [done|by right]]. done.
        * injection H3 as <-. do 2 eexists. split; [|split; [done|left; split; [done|]]].
          { by destruct s as [? [] ?]. }
          intros _. by apply eq_None_not_Some.
    - injection H2 as <-. do 2 eexists. split; [|rewrite app_nil_r; split; [done|left; split; [done|by intros]]].
      by destruct s as [? [] ?]. }
  clear H2.
  assert (∀ a b, is_shared (set_k s (set_cx_map (set_cx_cdestroyed (set_cx_owned (c_k s) x) a) b)) e = is_shared s e) as -> by done.
  destruct (is_shared s e); cbn; rewrite ?app_nil_r; repeat (split; [done|]); exact Hx.
Qed.

(** ** Well-formed registries *)
Record wfw (w : cworld) : Prop := {
  wf_next : ∀ e, e ∈ cw_alive w → e < cw_next w;
  wf_net : ∀ e, e ∈ cw_net w → e ∈ cw_alive w;
  wf_node : ∀ e, e ∈ cw_node w → e ∈ cw_alive w;
  wf_edge : ∀ e, is_Some (cw_edge w !! e) → e ∈ cw_alive w;
  wf_owner : ∀ e, is_Some (cw_owner w !! e) → e ∈ cw_alive w
}.
Lemma strip_wfw w e : wfw w → wfw (strip w e).
Proof.
  intros [A B C D E]. split; cbn; intros x.
  - intros (H & _)%elem_of_difference. auto.
  - intros [H ?]%elem_of_difference. apply elem_of_difference. auto.
  - intros [H ?]%elem_of_difference. apply elem_of_difference. auto.
  - intros [p Hp]. apply lookup_delete_Some in Hp as [? Hp]. apply elem_of_difference. split; [eauto|]. set_solver.
  - intros [p Hp]. apply lookup_delete_Some in Hp as [? Hp]. apply elem_of_difference. split; [eauto|]. set_solver.
Qed.
Lemma pstep_wfw s l s' : pstep s l = Ok s' → wfw (c_w s) → wfw (c_w s').
Proof.
  intros H Hw. destruct l; cbn [pstep] in H; try (injection H as <-; exact Hw).
  - injection H as <-. destruct Hw as [A B C D E]. split; cbn; intros x.
    + intros [->%elem_of_singleton|H]%elem_of_union; [lia|]. apply A in H. lia.
    + intros ?. apply elem_of_union. auto.
    + intros ?. apply elem_of_union. auto.
    + intros ?. apply elem_of_union. auto.
    + intros ?. apply elem_of_union. auto.
  - apply put_net_ok in H as (Ha & _ & -> & _). destruct Hw. split; cbn; try done.
    intros x [->%elem_of_singleton|?]%elem_of_union; eauto.
  - apply put_owner_ok in H as (Ha & _ & -> & _). destruct Hw. split; cbn; try done.
    intros x [p Hp]. apply lookup_insert_Some in Hp as [[-> _]|[_ Hp]]; eauto.
  - reqd H. injection H as <-. apply bool_decide_eq_true in Hr. destruct Hw. split; cbn; try done.
    intros x [p Hp]. apply lookup_insert_Some in Hp as [[-> _]|[_ Hp]]; eauto.
  - apply put_node_ok in H as (Ha & _ & -> & _). destruct Hw. split; cbn; try done.
    intros x [->%elem_of_singleton|?]%elem_of_union; eauto.
  - apply put_edge_ok in H as (Ha & _ & _ & _ & -> & _). destruct Hw. split; cbn; try done.
    intros x [p Hp]. apply lookup_insert_Some in Hp as [[-> _]|[_ Hp]]; eauto.
  - apply bind_ok in H as (s1 & H & H2). injection H2 as <-.
    apply put_edge_ok in H as (Ha & _ & _ & _ & E & _). cbn. rewrite E. destruct Hw. split; cbn; try done.
    intros x [p Hp]. apply lookup_insert_Some in Hp as [[-> _]|[_ Hp]]; eauto.
  - apply put_asset_ok in H as (-> & _). destruct Hw. by split.
  - apply put_linked_ok in H as (-> & _). destruct Hw. by split.
  - apply destroy_one_ok in H as (-> & _). by apply strip_wfw.
  - apply on_map_ok in H as (m & _ & -> & _). done.
  - apply on_map_ok in H as (m & _ & -> & _). done.
Qed.

(** ** The map is one to one *)
Definition bij (m : emap) : Prop := ∀ r l, em_map m !! r = Some l ↔ em_local m !! l = Some r.
Lemma em_insert_ok m r l m' : em_insert m r l = Ok m' →
  em_map m !! r = None ∧ em_local m !! l = None ∧ m' = EMap (<[r := l]> (em_map m)) (<[l := r]> (em_local m)).
Proof.
  unfold em_insert. intros H. apply bind_ok in H as (? & H1 & H). apply bind_ok in H as (? & H2 & H).
  injection H as <-. do 2 case_bool_decide; done.
Qed.
Lemma em_erase_ok m r m' : em_erase m r = Ok m' →
  ∃ l, em_map m !! r = Some l ∧ m' = EMap (delete r (em_map m)) (delete l (em_local m)).
Proof.
  unfold em_erase. intros H. apply bind_ok in H as (l & H1 & H). injection H as <-. exists l.
  by destruct (em_map m !! r); [injection H1 as ->|].
Qed.
Lemma em_insert_bij m r l m' : bij m → em_insert m r l = Ok m' → bij m'.
Proof.
  intros B (H1 & H2 & ->)%em_insert_ok a b. cbn. rewrite !lookup_insert_Some.
  specialize (B a b). split; intros [[-> ->]|[Hn H]]; auto.
  - right. split; [|by apply B]. intros ->. apply B in H. congruence.
  - right. split; [|by apply B]. intros ->. apply B in H. congruence.
Qed.
Lemma em_erase_bij m r m' : bij m → em_erase m r = Ok m' → bij m'.
Proof.
  intros B (l & H1 & ->)%em_erase_ok a b. cbn. rewrite !lookup_delete_Some.
  pose proof (B a b) as Bab. split; intros [Hn H].
  - split; [|by apply Bab]. intros ->. apply Bab in H. apply B in H1. congruence.
  - split; [|by apply Bab]. intros ->. apply Bab in H. congruence.
Qed.
Lemma pstep_bij s l s' : pstep s l = Ok s' → bij (cx_map (c_k s)) → bij (cx_map (c_k s')).
Proof.
  intros H B. destruct l; cbn [pstep] in H; try (injection H as <-; exact B).
  - apply put_net_ok in H as (_ & _ & _ & _ & ->). by destruct (cx_importing (c_k s)).
  - apply put_owner_ok in H as (_ & _ & _ & _ & [(_ & _ & ->)|(_ & ->)]); done.
  - reqd H. injection H as <-. done.
  - apply put_node_ok in H as (_ & _ & _ & _ & ->). done.
  - apply put_edge_ok in H as (_ & _ & _ & _ & _ & _ & ->). done.
  - apply bind_ok in H as (s1 & H & H2). injection H2 as <-.
    apply put_edge_ok in H as (_ & _ & _ & _ & _ & _ & E). cbn. by rewrite E.
  - apply put_asset_ok in H as (_ & _ & ->). done.
  - apply put_linked_ok in H as (_ & _ & ->). done.
  - apply destroy_one_ok in H as (_ & _ & _ & _ & _ & _ & _ & _ & _ & [[-> _]|[_ Hm]] & _); [done|].
    by eapply em_erase_bij.
  - apply on_map_ok in H as (m & Hm & _ & _ & ->). by eapply em_insert_bij.
  - apply on_map_ok in H as (m & Hm & _ & _ & ->). by eapply em_erase_bij.
Qed.

(** ** The worker's entities *)
Lemma worker_from_app w os1 os2 : worker_from w (os1 ++ os2) = worker_from (worker_from w os1) os2.
Proof. revert w. induction os1 as [|o os1 IH]; intros w; [done|]. destruct o; cbn; apply IH. Qed.
Lemma worker_plain os o : plain o = true → worker (os ++ [o]) = worker os.
Proof. intros H. unfold worker. rewrite worker_from_app. by destruct o. Qed.
Definition shared_w (w : cworld) (e : nat) : Prop := e ∈ cw_node w ∨ is_Some (cw_edge w !! e).
Record wki (s : cst) : Prop := {
  k_wf : wfw (c_w s);
  k_in : ∀ e, e ∈ worker (c_out s) →
    (shared_w (c_w s) e ∧ e ∉ cw_man (c_w s)) ∨ e ∈ cx_destroyed (c_k s);
  k_has : ∀ e, shared_w (c_w s) e → e ∉ cw_man (c_w s) → e ∈ worker (c_out s) ∨ e ∈ cx_created (c_k s);
  k_new : ∀ e, e ∈ cx_created (c_k s) → e ∉ worker (c_out s);
  k_dup : NoDup (cx_created (c_k s));
  k_life : ∀ e, e ∈ cx_created (c_k s) → e ∈ cw_alive (c_w s) → shared_w (c_w s) e;
  k_dead : ∀ e, e ∈ cx_destroyed (c_k s) → e ∉ cw_alive (c_w s);
  k_old : ∀ e, e ∈ cx_created (c_k s) ∨ e ∈ cx_destroyed (c_k s) ∨ e ∈ worker (c_out s) → e < cw_next (c_w s)
}.
Lemma wki_frame s s' :
  wki s → wfw (c_w s') →
  cw_alive (c_w s') = cw_alive (c_w s) → cw_next (c_w s') = cw_next (c_w s) →
  cw_node (c_w s') = cw_node (c_w s) → cw_edge (c_w s') = cw_edge (c_w s) → cw_man (c_w s') = cw_man (c_w s) →
  cx_created (c_k s') = cx_created (c_k s) → cx_destroyed (c_k s') = cx_destroyed (c_k s) →
  worker (c_out s') = worker (c_out s) → wki s'.
Proof.
  intros [A B C D E F G H] Hw E1 E2 E3 E4 E5 E6 E7 E8.
  split; [done|..]; unfold shared_w in *; rewrite ?E1, ?E2, ?E3, ?E4, ?E5, ?E6, ?E7, ?E8; done.
Qed.
Lemma wki_new_shared s s' e :
  wki s → wfw (c_w s') → e ∈ cw_alive (c_w s) → ¬ shared_w (c_w s) e →
  cw_alive (c_w s') = cw_alive (c_w s) → cw_next (c_w s') = cw_next (c_w s) →
  (∀ x, shared_w (c_w s') x ↔ shared_w (c_w s) x ∨ x = e) →
  (∀ x, x ∈ cw_man (c_w s) → x ∈ cw_man (c_w s')) →
  (∀ x, x ∈ cw_man (c_w s') → x ∈ cw_man (c_w s) ∨ x = e) →
  cx_created (c_k s') = cx_created (c_k s) ++ [e] → cx_destroyed (c_k s') = cx_destroyed (c_k s) →
  worker (c_out s') = worker (c_out s) → wki s'.
Proof.
  intros K Hw Ha Hs E1 E2 E3 E4 E4' E6 E7 E8.
  assert (e ∉ worker (c_out s)) as Hnw.
  { intros [[? _]|Hd]%(k_in _ K); [done|]. by apply (k_dead _ K) in Hd. }
  assert (e ∉ cx_created (c_k s)) as Hnc.
  { intros Hc. by apply (k_life _ K) in Hc. }
  destruct K as [A B C D E F G H].
  split; [done|..]; rewrite ?E1, ?E2, ?E6, ?E7, ?E8.
  - intros x Hx. destruct (B x Hx) as [[Hsx Hm]|Hd]; [left|by right].
    split; [by apply E3; left|]. intros [?| ->]%E4'; done.
  - intros x Hx Hm. apply E3 in Hx as [Hx| ->]; [|right; set_solver].
    destruct (C x Hx) as [?|?]; [|by left|right; set_solver]. intros ?. by apply Hm, E4.
  - intros x [Hx|Hx%elem_of_list_singleton]%elem_of_app; [by apply D|by subst].
  - apply NoDup_app. split; [done|]. split; [|apply NoDup_singleton]. intros x Hx ->%elem_of_list_singleton. done.
  - intros x [Hx|Hx%elem_of_list_singleton]%elem_of_app Hax; apply E3; [left; by apply F|by right].
  - done.
  - intros x [[Hx|Hx%elem_of_list_singleton]%elem_of_app|Hx]; [apply H; auto|subst; by apply (wf_next _ A)|apply H; auto].
Qed.
Lemma is_shared_false s e : is_shared s e = false → ¬ shared_w (c_w s) e.
Proof. intros H Hs. apply is_shared_true in Hs. congruence. Qed.
Lemma pstep_wki s l s' : alab l → pstep s l = Ok s' → wki s → wki s'.
Proof.
  intros Hl H K. pose proof (pstep_wfw _ _ _ H (k_wf _ K)) as Hw'.
  destruct l; cbn [pstep] in H.
  - injection H as <-. destruct K as [A B C D E F G I]. split; [done|..]; cbn; try done.
    + intros x Hx [->%elem_of_singleton|Ha]%elem_of_union; [|by apply F].
      assert (cw_next (c_w s) < cw_next (c_w s)) by (apply I; auto). lia.
    + intros x Hx [->%elem_of_singleton|Ha]%elem_of_union; [|by eapply G].
      assert (cw_next (c_w s) < cw_next (c_w s)) by (apply I; auto). lia.
    + intros x Hx. apply I in Hx. lia.
  - apply put_net_ok in H as (Ha & _ & Ew & Eo & Ek). eapply wki_frame; eauto; rewrite ?Ew, ?Ek, ?Eo; try done;
      by destruct (cx_importing (c_k s)).
  - apply put_owner_ok in H as (Ha & _ & Ew & Eo & [(_ & _ & Ek)|(_ & Ek)]);
      eapply wki_frame; eauto; rewrite ?Ew, ?Ek, ?Eo; done.
  - reqd H. injection H as <-. eapply wki_frame; eauto.
  - apply put_node_ok in H as (Ha & Hs & Ew & Eo & Ek). apply is_shared_false in Hs.
    eapply (wki_new_shared s s' e); eauto; unfold shared_w; rewrite ?Ew, ?Ek, ?Eo; try done; cbn; try set_solver.
  - apply put_edge_ok in H as (Ha & Hs & _ & _ & Ew & Eo & Ek). apply is_shared_false in Hs.
    eapply (wki_new_shared s s' e); eauto; unfold shared_w; rewrite ?Ew, ?Ek, ?Eo; try done; cbn; try set_solver.
    intros x. rewrite lookup_insert_is_Some. destruct (decide (x = e)); naive_solver.
  - apply bind_ok in H as (s1 & H & H2). injection H2 as <-.
    apply put_edge_ok in H as (Ha & Hs & _ & _ & Ew & Eo & Ek). apply is_shared_false in Hs.
    eapply (wki_new_shared s _ e); eauto; unfold shared_w; cbn in *; rewrite ?Ew, ?Ek, ?Eo; try done; cbn; try set_solver.
    intros x. rewrite lookup_insert_is_Some. destruct (decide (x = e)); naive_solver.
  - apply put_asset_ok in H as (Ew & Eo & Ek). eapply wki_frame; eauto; rewrite ?Ew, ?Ek, ?Eo; done.
  - apply put_linked_ok in H as (Ew & Eo & Ek). eapply wki_frame; eauto; rewrite ?Ew, ?Ek, ?Eo; done.
  - apply destroy_one_ok in H as (Ew & Eo & _ & Ec & Ed & _).
    assert (∀ x, shared_w (c_w s') x ↔ shared_w (c_w s) x ∧ x ≠ e) as Hsh.
    { intros x. unfold shared_w. rewrite Ew. cbn. rewrite elem_of_difference, elem_of_singleton, lookup_delete_is_Some.
      naive_solver. }
    destruct K as [A B C D E F G I]. split; [done|..]; rewrite ?Eo, ?Ec, ?Ed, ?Hsh.
    + intros x Hx. rewrite elem_of_app, Hsh. destruct (decide (x = e)) as [->|Hn].
      * right. destruct (B _ Hx) as [[Hs _]|?]; [|by left]. right.
        assert (is_shared s e = true) as -> by by apply is_shared_true. set_solver.
      * rewrite Ew. cbn. destruct (B _ Hx) as [[Hs ?]|?]; [left; set_solver|by right; left].
    + intros x [Hx Hn]%Hsh Hm. apply C; [done|]. rewrite Ew in Hm. cbn in Hm. set_solver.
    + done.
    + done.
    + intros x Hx Ha. rewrite Hsh. rewrite Ew in Ha. cbn in Ha. apply elem_of_difference in Ha as [Ha Hn].
      split; [by apply F|set_solver].
    + intros x [Hx|Hx]%elem_of_app; rewrite Ew; cbn.
      * apply G in Hx. set_solver.
      * destruct (is_shared s e); set_solver.
    + rewrite Ew. cbn. intros x Hx. rewrite elem_of_app in Hx.
      destruct (is_shared s e) eqn:Es; [|apply I; set_solver].
      apply is_shared_true in Es. destruct (decide (x = e)) as [->|]; [|apply I; set_solver].
      apply (wf_next _ A). destruct Es; [by apply (wf_node _ A)|by apply (wf_edge _ A)].
  - apply on_map_ok in H as (m & _ & Ew & Eo & Ek). eapply wki_frame; eauto; rewrite ?Ew, ?Ek, ?Eo; done.
  - apply on_map_ok in H as (m & _ & Ew & Eo & Ek). eapply wki_frame; eauto; rewrite ?Ew, ?Ek, ?Eo; done.
  - injection H as <-. eapply wki_frame; eauto; cbn. by apply worker_plain.
  - injection H as <-. eapply wki_frame; eauto.
  - injection H as <-. eapply wki_frame; eauto.
  - injection H as <-. eapply wki_frame; eauto.
  - injection H as <-. eapply wki_frame; eauto.
Qed.

(** *** An update *)
Lemma upd_requests_eq s : upd_requests s =
  CSt (c_w s) (set_cx_pending (c_k s) []) (c_out s ++ ((λ q, ORequest q.1 q.2) <$> cx_pending (c_k s))).
Proof.
  unfold upd_requests.
  assert (∀ qs s, foldl (λ s q, emit s (ORequest q.1 q.2)) s qs =
    CSt (c_w s) (c_k s) (c_out s ++ ((λ q, ORequest q.1 q.2) <$> qs))) as E.
  { clear s. induction qs as [|q qs IH]; intros s; cbn [foldl].
    - cbn. rewrite app_nil_r. by destruct s.
    - rewrite IH. unfold emit; cbn. by rewrite <- app_assoc. }
  rewrite E. done.
Qed.
Lemma worker_requests os qs : worker (os ++ ((λ q : list nat * Z, ORequest q.1 q.2) <$> qs)) = worker os.
Proof.
  unfold worker. rewrite worker_from_app. generalize (worker_from ∅ os). induction qs; intros w; [done|]. cbn. auto.
Qed.
(** What the worker is told in an update, and the state after it. *)
Definition made (s : cst) : list nat :=
  filter (λ e, valid s e && negb (bool_decide (e ∈ cw_man (c_w s)))) (cx_created (c_k s)).
Lemma upd_created_worker s : worker (c_out (upd_created s)) = worker (c_out s) ∪ list_to_set (made s).
Proof.
  unfold upd_created. fold (made s). destruct (made s) as [|e es] eqn:E; cbn.
  - set_solver.
  - unfold worker. rewrite worker_from_app. cbn. set_solver.
Qed.
Lemma upd_created_rest s :
  c_w (upd_created s) = c_w s ∧ c_k (upd_created s) = set_cx_created (c_k s) [].
Proof. unfold upd_created. fold (made s). by destruct (made s). Qed.
Lemma upd_destroyed_worker s :
  worker (c_out (upd_destroyed s)) = worker (c_out s) ∖ list_to_set (cx_destroyed (c_k s)).
Proof.
  unfold upd_destroyed. destruct (cx_destroyed (c_k s)) as [|e es]; cbn.
  - set_solver.
  - unfold worker. rewrite worker_from_app. done.
Qed.
Lemma upd_destroyed_rest s :
  c_w (upd_destroyed s) = c_w s ∧ c_k (upd_destroyed s) = set_cx_destroyed (c_k s) [].
Proof.
  unfold upd_destroyed. destruct (cx_destroyed (c_k s)) eqn:E; cbn; [|done].
  split; [done|]. rewrite <- E at 1. by destruct s as [? [] ?].
Qed.
Lemma made_iff s e : e ∈ made s ↔ e ∈ cx_created (c_k s) ∧ e ∈ cw_alive (c_w s) ∧ e ∉ cw_man (c_w s).
Proof.
  unfold made. rewrite elem_of_list_filter. unfold valid.
  rewrite Is_true_true, andb_true_iff, negb_true_iff, bool_decide_eq_true, bool_decide_eq_false. naive_solver.
Qed.
Lemma upd_worker s : wki s →
  let s' := upd_destroyed (upd_created s) in
  wki s' ∧ ∀ e, e ∈ worker (c_out s') ↔ simulated s' e.
Proof.
  intros K s'.
  destruct (upd_created_rest s) as [W1 K1]. destruct (upd_destroyed_rest (upd_created s)) as [W2 K2].
  pose proof (upd_created_worker s) as O1. pose proof (upd_destroyed_worker (upd_created s)) as O2.
  fold s' in W2, K2, O2. rewrite W1 in W2. rewrite K1 in K2. rewrite O1, K1 in O2. cbn in K2, O2.
  destruct K as [A B C D E F G I].
  assert (∀ e, e ∈ worker (c_out s') ↔ simulated s' e) as HW.
  { intros e. rewrite O2. unfold simulated. rewrite W2. rewrite elem_of_difference, elem_of_union, !elem_of_list_to_set, made_iff.
    split.
    - intros [[Hx|(Hx & Ha & Hm)] Hd].
      + destruct (B _ Hx) as [?|?]; done.
      + split; [by apply F|done].
    - intros [Hs Hm]. split.
      + destruct (C _ Hs Hm) as [?|?]; [by left|right]. split; [done|]. split; [|done].
        destruct Hs; [by apply (wf_node _ A)|by apply (wf_edge _ A)].
      + intros Hd. apply G in Hd. destruct Hs; [by apply Hd, (wf_node _ A)|by apply Hd, (wf_edge _ A)]. }
  split; [|done].
  split; rewrite ?K2, ?W2; cbn.
  - done.
  - intros e He. apply HW in He. left. unfold simulated in He. rewrite W2 in He. done.
  - intros e Hs Hm. left. apply HW. unfold simulated. by rewrite W2.
  - intros e He. by apply elem_of_nil in He.
  - constructor.
  - intros e He. by apply elem_of_nil in He.
  - intros e He. by apply elem_of_nil in He.
  - intros e [He|[He|He]]; [by apply elem_of_nil in He|by apply elem_of_nil in He|].
    apply HW in He. unfold simulated in He. rewrite W2 in He.
    apply (wf_next _ A). destruct He as [[?|?] _]; [by apply (wf_node _ A)|by apply (wf_edge _ A)].
Qed.

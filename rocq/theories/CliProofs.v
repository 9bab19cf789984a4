(** Every action of the client is a sequence of small changes; executions as
    sequences of such changes. *)
From Coq Require Import ZArith.
From Verif Require Import Outcome MapModel CliModel CliSpec.
Local Open Scope nat_scope.

Inductive lab :=
| LNew | LNet (e : nat) | LOwner (e : nat) (o : option nat) | LReown (e : nat) (o : option nat)
| LNode (e : nat) | LEdge (e a b : nat) | LManifold (e a b : nat) | LAsset (e : nat) (a : list (nat * nat))
| LLinked (e : nat) | LKill (e : nat) | LIns (r l : nat) | LDel (r : nat) | LEmit (o : cout)
| LImp (b : bool) | LPend (q : list nat * Z) | LMe (l : nat) | LCfg (delay : Z) (sync : option Z) (dt : Z).

Definition pstep (s : cst) (l : lab) : res cst :=
  match l with
  | LNew => Ok (c_create s).1
  | LNet e => put_net s e
  | LOwner e o => put_owner s e o
  | LReown e o =>
    _ ← require_ (bool_decide (is_Some (cw_owner (c_w s) !! e)));
    Ok (set_w s (set_cw_owner (c_w s) (<[e := o]> (cw_owner (c_w s)))))
  | LNode e => put_node s e
  | LEdge e a b => put_edge s e a b
  | LManifold e a b =>
    s ← put_edge s e a b;
    Ok (set_w s (set_cw_man (c_w s) ({[e]} ∪ cw_man (c_w s))))
  | LAsset e a => put_asset s e a
  | LLinked e => put_linked s e
  | LKill e => destroy_one s e
  | LIns r l => on_map s (λ m, em_insert m r l)
  | LDel r => on_map s (λ m, em_erase m r)
  | LEmit o => Ok (emit s o)
  | LImp b => Ok (importing s b)
  | LPend q => Ok (set_k s (set_cx_pending (c_k s) (cx_pending (c_k s) ++ [q])))
  | LMe l => Ok (set_k s (set_cx_me (c_k s) (Some l)))
  | LCfg delay sync dt => Ok (set_k s (set_cx_dt (set_cx_sync (set_cx_delay (c_k s) delay) sync) dt))
  end.
Fixpoint pruns (s : cst) (ls : list lab) : res cst :=
  match ls with [] => Ok s | l :: ls => s ← pstep s l; pruns s ls end.

Lemma pruns_app s l1 l2 s2 :
  pruns s (l1 ++ l2) = Ok s2 ↔ ∃ s1, pruns s l1 = Ok s1 ∧ pruns s1 l2 = Ok s2.
Proof.
  revert s; induction l1 as [|l l1 IH]; intros s; cbn [pruns app].
  - split; [by eauto|]. intros (? & [= ->] & ?); done.
  - rewrite bind_ok. setoid_rewrite bind_ok. setoid_rewrite IH. naive_solver.
Qed.

(** Outputs that are neither reports to the server nor messages to the worker. *)
Definition plain (o : cout) : bool :=
  match o with
  | OCreate _ | ODestroy _ | OWCreate _ _ | OWDestroy _ | ORequest _ _ => false
  | _ => true
  end.

(** A run of small changes, each of which satisfies [P]. *)
Definition path (P : lab → Prop) (s s' : cst) : Prop := ∃ ls, pruns s ls = Ok s' ∧ Forall P ls.
Lemma path_refl P s : path P s s.
Proof. exists []. split; [done|constructor]. Qed.
Lemma path_one (P : lab → Prop) s l s' : pstep s l = Ok s' → P l → path P s s'.
Proof. intros H Hp. exists [l]. cbn [pruns]. rewrite H. split; [done|by repeat constructor]. Qed.
Lemma path_trans P s1 s2 s3 : path P s1 s2 → path P s2 s3 → path P s1 s3.
Proof.
  intros (l1 & H1 & F1) (l2 & H2 & F2). exists (l1 ++ l2). split.
  - apply pruns_app. eauto.
  - by apply Forall_app.
Qed.
Lemma path_mono (P Q : lab → Prop) s s' : (∀ l, P l → Q l) → path P s s' → path Q s s'.
Proof. intros HPQ (ls & H & F). exists ls. split; [done|]. eapply Forall_impl; eauto. Qed.
(** An invariant of every change is an invariant of the run. *)
Lemma path_inv (P : lab → Prop) (I : cst → Prop) s s' :
  (∀ s l s', P l → I s → pstep s l = Ok s' → I s') → path P s s' → I s → I s'.
Proof.
  intros Hs (ls & H & F). revert s H. induction F as [|l ls Hl F IH]; intros s H Hi.
  - injection H as <-; done.
  - cbn [pruns] in H. apply bind_ok in H as (s1 & H1 & H2). eauto.
Qed.

(** Labels of an action while importing: only plain outputs, and the flag is
    only ever set.  [reown], [kill], [del] allow changes of owners, destructions
    and removals from the map; [ins] insertions in the map and outputs. *)
Definition qlab (reown kill ins del : bool) (l : lab) : Prop :=
  match l with
  | LEmit o => plain o = true ∧ ins = true
  | LImp b => b = true
  | LPend _ | LMe _ | LCfg _ _ _ => False
  | LReown _ _ => reown = true
  | LKill _ => kill = true
  | LIns _ _ => ins = true
  | LDel _ => del = true
  | _ => True
  end.

Ltac okd H := repeat (apply bind_ok in H; destruct H as (? & ? & H)).
Ltac pone := eapply path_one; [cbn [pstep]; first [eassumption|reflexivity]|done].
Ltac pthen x := apply path_trans with x; [pone|].

Section imp.
Variables (ro ki ins de : bool).
Notation Q := (qlab ro ki ins de).

Lemma destroy_list_path s es s' : ki = true → destroy_list s es = Ok s' → path Q s s'.
Proof.
  intros K. revert s. induction es as [|e es IH]; intros s H; cbn [destroy_list] in H.
  - injection H as <-. apply path_refl.
  - apply bind_ok in H as (s1 & H1 & H2). apply path_trans with s1; [|by apply IH].
    by apply path_one with (LKill e).
Qed.
Lemma c_destroy_path s e s' : ki = true → c_destroy s e = Ok s' → path Q s s'.
Proof.
  intros K H. unfold c_destroy in H. apply bind_ok in H as (? & _ & H).
  apply bind_ok in H as (s1 & H1 & H2). apply path_trans with s1.
  - case_bool_decide; [by eapply destroy_list_path|]. injection H1 as <-. apply path_refl.
  - by apply path_one with (LKill e).
Qed.
Lemma link_entries_path s f own es s' ps :
  ins = true → link_entries s f own es = Ok (s', ps) → path Q s s'.
Proof.
  intros I. revert s ps. induction es as [|[i r] es IH]; intros s ps H; cbn [link_entries] in H.
  - injection H as <- _. apply path_refl.
  - apply bind_ok in H as (l & Hl & H). apply bind_ok in H as (s1 & H1 & H).
    apply bind_ok in H as (s2 & H2 & H). apply bind_ok in H as (s3 & H3 & H).
    apply bind_ok in H as ([s4 qs] & H4 & H). injection H as <- <-.
    apply path_trans with s1; [by apply path_one with (LIns r l)|].
    apply path_trans with s2; [by apply path_one with (LNet l)|].
    apply path_trans with s3; [|by eapply IH].
    destruct own as [c|]; [by apply path_one with (LOwner l (Some c))|].
    injection H3 as <-. apply path_refl.
Qed.
Lemma link_asset_path s a f s' :
  ins = true → cx_importing (c_k s) = true → link_asset s a f = Ok s' → path Q s s'.
Proof.
  intros I Him H. unfold link_asset in H. apply bind_ok in H as (es & He & H).
  apply bind_ok in H as ([s1 ps] & H1 & H). apply bind_ok in H as (s2 & H2 & H). injection H as <-.
  apply path_trans with (importing s true); [by apply path_one with (LImp true)|].
  apply path_trans with s1; [by eapply link_entries_path|].
  apply path_trans with s2; [by apply path_one with (LLinked a)|].
  rewrite Him.
  apply path_trans with (importing s2 true); [by apply path_one with (LImp true)|].
  by apply path_one with (LEmit (OMap ps)).
Qed.
Lemma ustep_path s o s' :
  ki = true → ins = true → cx_importing (c_k s) = true → ustep s o = Ok s' → path Q s s'.
Proof.
  intros K I Him H. destruct o as [|e|e|e a b|e a b|e|a|a f]; cbn [ustep] in H.
  - by apply path_one with LNew.
  - by apply path_one with (LNet e).
  - by apply path_one with (LNode e).
  - by apply path_one with (LEdge e a b).
  - by apply path_one with (LManifold e a b).
  - by eapply c_destroy_path.
  - apply bind_ok in H as (r & _ & H). by apply path_one with (LEmit (OSync r)).
  - by eapply link_asset_path.
Qed.

(** Labels of [Q] keep the importing flag set. *)
Lemma pstep_importing s l s' : pstep s l = Ok s' → Q l → cx_importing (c_k s) = true → cx_importing (c_k s') = true.
Proof.
  intros H Hq Him. destruct l; cbn [pstep qlab] in *;
    unfold put_net, put_owner, put_node, put_edge, put_asset, put_linked, on_map, on_construct_owner, on_construct_net in H;
    try (by injection H as <-); try done.
  - okd H. injection H as <-. destruct s; cbn in *. by rewrite Him.
  - okd H. case_bool_decide; [okd H|]; by injection H as <-.
  - okd H. by injection H as <-.
  - okd H. by injection H as <-.
  - okd H. by injection H as <-.
  - apply bind_ok in H as (s1 & H1 & H). okd H1. injection H1 as <-. by injection H as <-.
  - okd H. by injection H as <-.
  - okd H. by injection H as <-.
  - unfold destroy_one, on_destroy_net, on_destroy_owner, on_map in H.
    apply bind_ok in H as (s1 & H1 & H). apply bind_ok in H as (s2 & H2 & H). injection H as <-.
    assert (cx_importing (c_k s1) = true) as E1.
    { destruct (cw_owner (c_w s) !! e); [|by injection H1 as <-].
      destruct (bool_decide (o = _)); [okd H1|]; by injection H1 as <-. }
    assert (cx_importing (c_k s2) = true) as E2.
    { rewrite E1 in H2. destruct (bool_decide (e ∈ cw_net (c_w s))); by injection H2 as <-. }
    by destruct (is_shared s2 e).
  - okd H. by injection H as <-.
  - okd H. by injection H as <-.
Qed.
Lemma path_importing s s' : path Q s s' → cx_importing (c_k s) = true → cx_importing (c_k s') = true.
Proof. apply (path_inv Q (λ s, cx_importing (c_k s) = true)). intros. eapply pstep_importing; eauto. Qed.
Lemma uruns_path s os s' :
  ki = true → ins = true → cx_importing (c_k s) = true → uruns s os = Ok s' → path Q s s'.
Proof.
  intros K I. revert s. induction os as [|o os IH]; intros s Him H; cbn [uruns] in H.
  - injection H as <-. apply path_refl.
  - apply bind_ok in H as (s1 & H1 & H2).
    assert (path Q s s1) as P1 by by eapply ustep_path.
    apply path_trans with s1; [done|]. apply IH; [|done]. by eapply path_importing.
Qed.
Lemma create_unknown_path s rs s' ps : ins = true → create_unknown s rs = Ok (s', ps) → path Q s s'.
Proof.
  intros I. revert s ps. induction rs as [|r rs IH]; intros s ps H; cbn [create_unknown] in H.
  - injection H as <- _. apply path_refl.
  - destruct (em_contains _ r); [by eapply IH|].
    destruct (c_create s) as [s0 l] eqn:E0.
    apply bind_ok in H as (s1 & H1 & H). apply bind_ok in H as ([s2 qs] & H2 & H). injection H as <- _.
    apply path_trans with s0. { apply path_one with LNew; [cbn [pstep]; by rewrite E0|done]. }
    apply path_trans with s1; [by apply path_one with (LIns r l)|]. by eapply IH.
Qed.
Lemma import_one_path s c s' : ro = true → import_one s c = Ok s' → path Q s s'.
Proof.
  intros R H. unfold import_one in H. destruct (em_map _ !! ce_r c) as [l|]; [|injection H as <-; apply path_refl].
  destruct (negb (valid s l)); [injection H as <-; apply path_refl|].
  apply bind_ok in H as (s1 & H1 & H). apply path_trans with s1.
  - destruct (ce_net c && _); [by apply path_one with (LNet l)|]. injection H1 as <-. apply path_refl.
  - destruct (ce_owner c) as [o|]; [|injection H as <-; apply path_refl].
    case_bool_decide as Hc; [|by apply path_one with (LOwner l (to_local s1 o))].
    apply path_one with (LReown l (to_local s1 o)); [|done]. cbn [pstep].
    rewrite bool_decide_true by done. cbn [mbind res_bind require_]. done.
Qed.
Lemma import_all_path s cs s' : ro = true → import_all s cs = Ok s' → path Q s s'.
Proof.
  intros R. revert s. induction cs as [|c cs IH]; intros s H; cbn [import_all] in H.
  - injection H as <-. apply path_refl.
  - apply bind_ok in H as (s1 & H1 & H2). apply path_trans with s1; [by eapply import_one_path|by apply IH].
Qed.
Lemma finish_all_path s cs new s' : finish_all s cs new = Ok s' → path Q s s'.
Proof.
  revert s. induction new as [|[r l] new IH]; intros s H; cbn [finish_all] in H.
  - injection H as <-. apply path_refl.
  - apply bind_ok in H as (s1 & H1 & H2). apply path_trans with s1; [|by apply IH].
    unfold finish_created in H1. apply bind_ok in H1 as (s0 & H0 & H1). apply path_trans with s0.
    + case_bool_decide; [injection H0 as <-; apply path_refl|by apply path_one with (LNet l)].
    + destruct (_ && _); [by apply path_one with (LNode l)|injection H1 as <-; apply path_refl].
Qed.
Lemma edges_all_path s cs s' : edges_all s cs = Ok s' → path Q s s'.
Proof.
  revert s. induction cs as [|c cs IH]; intros s H; cbn [edges_all] in H.
  - injection H as <-. apply path_refl.
  - apply bind_ok in H as (l & Hl & H). apply bind_ok in H as (s1 & H1 & H2).
    apply path_trans with s1; [|by apply IH].
    destruct (ce_con c) as [[a b]|]; [|injection H1 as <-; apply path_refl].
    destruct (_ || _); [injection H1 as <-; apply path_refl|].
    apply bind_ok in H1 as (a' & Ha & H1). apply bind_ok in H1 as (b' & Hb & H1).
    by apply path_one with (LEdge l a' b').
Qed.
Lemma destroy_entries_path s es s' : ki = true → de = true → destroy_entries s es = Ok s' → path Q s s'.
Proof.
  intros K D. revert s. induction es as [|[i r] es IH]; intros s H; cbn [destroy_entries] in H.
  - injection H as <-. apply path_refl.
  - apply bind_ok in H as (l & Hl & H). apply bind_ok in H as (s1 & H1 & H).
    apply bind_ok in H as (s2 & H2 & H).
    apply path_trans with s1; [by apply path_one with (LDel r)|].
    apply path_trans with s2; [|by apply IH].
    destruct (valid s1 l); [by eapply c_destroy_path|injection H2 as <-; apply path_refl].
Qed.
Lemma destroy_remote_path s r s' : ki = true → de = true → destroy_remote s r = Ok s' → path Q s s'.
Proof.
  intros K D H. unfold destroy_remote in H. destruct (em_map _ !! r) as [l|]; [|injection H as <-; apply path_refl].
  apply bind_ok in H as (s1 & H1 & H). apply path_trans with s1; [by apply path_one with (LDel r)|].
  destruct (negb (valid s1 l)); [injection H as <-; apply path_refl|].
  apply bind_ok in H as (s2 & H2 & H). apply path_trans with s2; [|by eapply c_destroy_path].
  destruct (cw_asset _ !! l); [by eapply destroy_entries_path|injection H2 as <-; apply path_refl].
Qed.
Lemma destroy_remotes_path s rs s' : ki = true → de = true → destroy_remotes s rs = Ok s' → path Q s s'.
Proof.
  intros K D. revert s. induction rs as [|r rs IH]; intros s H; cbn [destroy_remotes] in H.
  - injection H as <-. apply path_refl.
  - apply bind_ok in H as (s1 & H1 & H2). apply path_trans with s1; [by eapply destroy_remote_path|by apply IH].
Qed.
Lemma notify_exited_path s rs : ins = true → path Q s (notify_exited s rs).
Proof.
  intros I.
  unfold notify_exited. revert s. induction rs as [|r rs IH]; intros s; cbn [foldl].
  - apply path_refl.
  - eapply path_trans; [|apply IH]. destruct (em_map _ !! r) as [l|]; [|apply path_refl].
    by apply path_one with (LEmit (OExited l)).
Qed.
Lemma enter_owner_path s l o s' ps : ins = true → enter_owner s l o = Ok (s', ps) → path Q s s'.
Proof.
  intros I H. unfold enter_owner in H. destruct o as [ro'|]; [|injection H as <- _; apply path_refl].
  destruct (em_map _ !! ro') as [lo|].
  - apply bind_ok in H as (s1 & H1 & H). injection H as <- _. by apply path_one with (LOwner l (Some lo)).
  - destruct (c_create s) as [s0 lo] eqn:E0.
    apply bind_ok in H as (s1 & H1 & H). apply bind_ok in H as (s2 & H2 & H). injection H as <- _.
    apply path_trans with s0. { apply path_one with LNew; [cbn [pstep]; by rewrite E0|done]. }
    apply path_trans with s1; [by apply path_one with (LIns ro' lo)|]. by apply path_one with (LOwner l (Some lo)).
Qed.
Lemma enter_all_path s es s' ps :
  ki = true → ins = true → cx_importing (c_k s) = true → enter_all s es = Ok (s', ps) → path Q s s'.
Proof.
  intros K I. revert s ps. induction es as [|n es IH]; intros s ps Him H; cbn [enter_all] in H.
  - injection H as <- _. apply path_refl.
  - destruct (em_contains _ (ne_r n)); [by eapply IH|].
    destruct (c_create s) as [s0 l] eqn:E0.
    apply bind_ok in H as (s1 & H1 & H). apply bind_ok in H as (s2 & H2 & H).
    apply bind_ok in H as (s3 & H3 & H). apply bind_ok in H as ([s4 p4] & H4 & H).
    apply bind_ok in H as (s5 & H5 & H). apply bind_ok in H as (? & _ & H).
    apply bind_ok in H as ([s6 qs] & H6 & H). injection H as <- _.
    assert (path Q s (emit s4 (OEntered l))) as P4.
    { apply path_trans with s0. { apply path_one with LNew; [cbn [pstep]; by rewrite E0|done]. }
      apply path_trans with s1; [by apply path_one with (LIns (ne_r n) l)|].
      apply path_trans with s2; [by apply path_one with (LAsset l (ne_asset n))|].
      apply path_trans with s3; [by apply path_one with (LNet l)|].
      apply path_trans with s4; [by eapply enter_owner_path|].
      by apply path_one with (LEmit (OEntered l)). }
    assert (path Q s s5) as P5.
    { apply path_trans with (emit s4 (OEntered l)); [done|]. eapply uruns_path; [done|done| |done].
      by eapply path_importing. }
    apply path_trans with s5; [done|]. eapply IH; [|done]. by eapply path_importing.
Qed.
End imp.

(** Labels of an action outside an update: any, with plain outputs. *)
Definition alab (l : lab) : Prop := match l with LEmit o => plain o = true | _ => True end.
Lemma qlab_alab a b c d l : qlab a b c d l → alab l.
Proof. destruct l; try done. by intros [? _]. Qed.
Lemma qpath_apath a b c d s s' : path (qlab a b c d) s s' → path alab s s'.
Proof. apply path_mono, qlab_alab. Qed.
Lemma link_asset_apath s a f s' : link_asset s a f = Ok s' → path alab s s'.
Proof.
  intros H. unfold link_asset in H. apply bind_ok in H as (es & He & H).
  apply bind_ok in H as ([s1 ps] & H1 & H). apply bind_ok in H as (s2 & H2 & H). injection H as <-.
  apply path_trans with (importing s true); [by apply path_one with (LImp true)|].
  apply path_trans with s1; [by eapply (qpath_apath false false true false), link_entries_path|].
  apply path_trans with s2; [by apply path_one with (LLinked a)|].
  apply path_trans with (importing s2 (cx_importing (c_k s))); [by apply path_one with (LImp (cx_importing (c_k s)))|].
  by apply path_one with (LEmit (OMap ps)).
Qed.
Lemma ustep_apath s o s' : ustep s o = Ok s' → path alab s s'.
Proof.
  intros H. destruct o as [|e|e|e a b|e a b|e|a|a f]; cbn [ustep] in H.
  - by apply path_one with LNew.
  - by apply path_one with (LNet e).
  - by apply path_one with (LNode e).
  - by apply path_one with (LEdge e a b).
  - by apply path_one with (LManifold e a b).
  - by eapply (qpath_apath false true false false), c_destroy_path.
  - apply bind_ok in H as (r & _ & H). by apply path_one with (LEmit (OSync r)).
  - by eapply link_asset_apath.
Qed.
Lemma recv_map_apath s ps s' : recv_map s ps = Ok s' → path alab s s'.
Proof.
  revert s. induction ps as [|[l r] ps IH]; intros s H; cbn [recv_map] in H.
  - injection H as <-. apply path_refl.
  - apply bind_ok in H as (s1 & H1 & H). apply path_trans with s1; [|by apply IH].
    destruct (valid s l); [by apply path_one with (LIns r l)|injection H1 as <-; apply path_refl].
Qed.
Lemma recv_client_apath s r s' : recv_client s r = Ok s' → path alab s s'.
Proof.
  unfold recv_client. destruct (c_create s) as [s0 l] eqn:E0. intros H.
  apply bind_ok in H as (? & _ & H). apply bind_ok in H as (s2 & H2 & H). injection H as <-.
  apply path_trans with s0. { apply path_one with LNew; [cbn [pstep]; by rewrite E0|done]. }
  eapply path_trans; [by apply path_one with (LMe l)|].
  eapply path_trans; [by apply path_one with (LIns r l)|].
  eapply path_trans; [by apply path_one with (LEmit (OMap [(r, l)]))|].
  by apply path_one with (LEmit (OAssigned l)).
Qed.
(** The part of a create_entity packet between the flags. *)
Lemma recv_create_parts s cs s' :
  recv_create s cs = Ok s' → ∃ s1 new s3,
    create_unknown s (ce_r <$> cs) = Ok (s1, new) ∧
    path (qlab true false false false)
      (importing (match new with [] => s1 | _ => emit s1 (OMap new) end) true) s3 ∧
    s' = importing s3 false.
Proof.
  unfold recv_create. intros H. apply bind_ok in H as ([s1 new] & H1 & H).
  apply bind_ok in H as (s3 & H3 & H). apply bind_ok in H as (s4 & H4 & H).
  apply bind_ok in H as (s5 & H5 & H). injection H as <-.
  exists s1, new, s5. split; [done|]. split; [|done].
  eapply path_trans; [by eapply import_all_path|].
  eapply path_trans; [by eapply finish_all_path|by eapply edges_all_path].
Qed.
Lemma recv_create_apath s cs s' : recv_create s cs = Ok s' → path alab s s'.
Proof.
  intros (s1 & new & s3 & H1 & H3 & ->)%recv_create_parts.
  apply path_trans with s1; [by eapply (qpath_apath false false true false), create_unknown_path|].
  eapply path_trans with (match new with [] => s1 | _ => emit s1 (OMap new) end).
  { destruct new; [apply path_refl|by apply path_one with (LEmit (OMap (p :: new)))]. }
  eapply path_trans; [by apply path_one with (LImp true)|].
  eapply path_trans; [by eapply qpath_apath|by apply path_one with (LImp false)].
Qed.
Lemma recv_destroy_parts s rs s' :
  recv_destroy s rs = Ok s' → ∃ s1,
    path (qlab false true false true) (importing (notify_exited s rs) true) s1 ∧ s' = importing s1 false.
Proof.
  unfold recv_destroy. intros H. apply bind_ok in H as (s1 & H1 & H). injection H as <-.
  exists s1. split; [|done]. by eapply destroy_remotes_path.
Qed.
Lemma recv_destroy_apath s rs s' : recv_destroy s rs = Ok s' → path alab s s'.
Proof.
  intros (s1 & H1 & ->)%recv_destroy_parts.
  eapply path_trans; [eapply (qpath_apath false false true false), (notify_exited_path _ _ _ _ _ rs); done|].
  eapply path_trans; [by apply path_one with (LImp true)|].
  eapply path_trans; [by eapply qpath_apath|by apply path_one with (LImp false)].
Qed.
Lemma recv_entered_parts s es s' :
  recv_entered s es = Ok s' → ∃ s1 ps,
    enter_all (importing s true) es = Ok (s1, ps) ∧
    path (qlab false true true false) (importing s true) s1 ∧
    s' = importing (match ps with [] => s1 | _ => emit s1 (OMap ps) end) false.
Proof.
  unfold recv_entered. intros H. apply bind_ok in H as ([s1 ps] & H1 & H). injection H as <-.
  exists s1, ps. split; [done|]. split; [|done]. by eapply enter_all_path.
Qed.
Lemma recv_entered_apath s es s' : recv_entered s es = Ok s' → path alab s s'.
Proof.
  intros (s1 & ps & H0 & H1 & ->)%recv_entered_parts.
  eapply path_trans; [by apply path_one with (LImp true)|].
  eapply path_trans; [by eapply qpath_apath|].
  eapply path_trans with (match ps with [] => s1 | _ => emit s1 (OMap ps) end).
  { destruct ps; [apply path_refl|by apply path_one with (LEmit (OMap (p :: ps)))]. }
  by apply path_one with (LImp false).
Qed.
Lemma recv_snapshot_apath s now ts rs some s' : recv_snapshot s now ts rs some = Ok s' → path alab s s'.
Proof.
  unfold recv_snapshot. destruct (existsb _ _); [intros [= <-]; apply path_refl|].
  destruct (match cx_sync (c_k s) with Some d => _ | None => _ end) as [t d].
  set (un := remove_dups _). intros H.
  set (ls := omap _ rs) in *.
  assert (path alab s (match un with [] => s | _ => emit s (OInput un t d) end)) as P1.
  { destruct un; [apply path_refl|]. by eapply path_one with (LEmit _). }
  eapply path_trans; [exact P1|].
  destruct (_ || _).
  - injection H as <-. destruct some; [|apply path_refl]. by eapply path_one with (LEmit (OSnap ls)).
  - injection H as <-. eapply path_one with (LPend (ls, t)); [|done]. cbn [pstep]. by destruct un.
Qed.
(** Every step other than an update is a run of small changes. *)
Lemma cstep_apath s o s' : o ≠ CUpdate → cstep s o = Ok s' → path alab s s'.
Proof.
  intros Hn H. destruct o; cbn [cstep] in H.
  - by eapply ustep_apath.
  - done.
  - by eapply recv_client_apath.
  - by eapply recv_map_apath.
  - by eapply recv_create_apath.
  - by eapply recv_destroy_apath.
  - by eapply recv_entered_apath.
  - by eapply recv_snapshot_apath.
  - apply bind_ok in H as (l & _ & H). injection H as <-. by apply path_one with (LEmit (OInst l)).
  - injection H as <-. eapply path_one with (LCfg d (cx_sync (c_k s)) (cx_dt (c_k s))); [|done].
    cbn [pstep]. f_equal.
  - injection H as <-. eapply path_one with (LCfg (cx_delay (c_k s)) (Some d) (cx_dt (c_k s))); [|done].
    cbn [pstep]. f_equal.
  - injection H as <-. eapply path_one with (LCfg (cx_delay (c_k s)) (cx_sync (c_k s)) dt); [|done].
    cbn [pstep]. f_equal.
Qed.
Lemma insert_owner_apath s es s' : insert_owner s es = Ok s' → path alab s s'.
Proof.
  revert s. induction es as [|e es IH]; intros s H; cbn [insert_owner] in H.
  - injection H as <-. apply path_refl.
  - apply bind_ok in H as (s1 & H1 & H). apply path_trans with s1; [|by apply IH].
    by eapply path_one with (LOwner e _).
Qed.

(** Changes that neither tag nor destroy entities. *)
Definition nolab (l : lab) : Prop := match l with LNet _ | LKill _ => False | _ => alab l end.
Lemma recv_map_npath s ps s' : recv_map s ps = Ok s' → path nolab s s'.
Proof.
  revert s. induction ps as [|[l r] ps IH]; intros s H; cbn [recv_map] in H.
  - injection H as <-. apply path_refl.
  - apply bind_ok in H as (s1 & H1 & H). apply path_trans with s1; [|by apply IH].
    destruct (valid s l); [by apply path_one with (LIns r l)|injection H1 as <-; apply path_refl].
Qed.
Lemma recv_client_npath s r s' : recv_client s r = Ok s' → path nolab s s'.
Proof.
  unfold recv_client. destruct (c_create s) as [s0 l] eqn:E0. intros H.
  apply bind_ok in H as (? & _ & H). apply bind_ok in H as (s2 & H2 & H). injection H as <-.
  apply path_trans with s0. { apply path_one with LNew; [cbn [pstep]; by rewrite E0|done]. }
  eapply path_trans; [by apply path_one with (LMe l)|].
  eapply path_trans; [by apply path_one with (LIns r l)|].
  eapply path_trans; [by apply path_one with (LEmit (OMap [(r, l)]))|].
  by apply path_one with (LEmit (OAssigned l)).
Qed.
Lemma recv_snapshot_npath s now ts rs some s' : recv_snapshot s now ts rs some = Ok s' → path nolab s s'.
Proof.
  unfold recv_snapshot. destruct (existsb _ _); [intros [= <-]; apply path_refl|].
  destruct (match cx_sync (c_k s) with Some d => _ | None => _ end) as [t d].
  set (un := remove_dups _). intros H.
  set (ls := omap _ rs) in *.
  assert (path nolab s (match un with [] => s | _ => emit s (OInput un t d) end)) as P1.
  { destruct un; [apply path_refl|]. by eapply path_one with (LEmit _). }
  eapply path_trans; [exact P1|].
  destruct (_ || _).
  - injection H as <-. destruct some; [|apply path_refl]. by eapply path_one with (LEmit (OSnap ls)).
  - injection H as <-. eapply path_one with (LPend (ls, t)); [|done]. cbn [pstep]. by destruct un.
Qed.
Lemma create_unknown_npath s rs s' ps : create_unknown s rs = Ok (s', ps) → path nolab s s'.
Proof.
  revert s ps. induction rs as [|r rs IH]; intros s ps H; cbn [create_unknown] in H.
  - injection H as <- _. apply path_refl.
  - destruct (em_contains _ r); [by eapply IH|].
    destruct (c_create s) as [s0 l] eqn:E0.
    apply bind_ok in H as (s1 & H1 & H). apply bind_ok in H as ([s2 qs] & H2 & H). injection H as <- _.
    apply path_trans with s0. { apply path_one with LNew; [cbn [pstep]; by rewrite E0|done]. }
    apply path_trans with s1; [by apply path_one with (LIns r l)|]. by eapply IH.
Qed.
Lemma notify_exited_npath s rs : path nolab s (notify_exited s rs).
Proof.
  unfold notify_exited. revert s. induction rs as [|r rs IH]; intros s; cbn [foldl].
  - apply path_refl.
  - eapply path_trans; [|apply IH]. destruct (em_map _ !! r) as [l|]; [|apply path_refl].
    by apply path_one with (LEmit (OExited l)).
Qed.

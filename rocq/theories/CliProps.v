(** The properties of the networked client. *)
From Coq Require Import ZArith.
From Verif Require Import Outcome MapModel CliModel CliSpec CliProofs CliProofs2 CliProofs3 CliProofs4 CliProofs5 CliProofs6 CliProofs7.
Local Open Scope nat_scope.

(** A client with no playout delay, half a round trip of 2, a step of 1 and
    extrapolation enabled. *)
Definition c0 : cst := cinit 0 2 1 true.
Definition after (os : list cop) : cst := match crun c0 os with Ok s => s | _ => c0 end.
Lemma after_runs os : match crun c0 os with Ok _ => true | _ => false end = true → runs c0 os (after os).
Proof. intros H. split; [by exists 0%Z, 2%Z, 1%Z, true|]. unfold after. by destruct (crun c0 os). Qed.
Lemma start_c0 : start c0.
Proof. by exists 0%Z, 2%Z, 1%Z, true. Qed.

Ltac yes := unfold networked, lives, owned; apply (bool_decide_unpack _); by vm_compute.
Ltac no := let H := fresh in unfold networked, lives, owned; intros H; apply (bool_decide_pack _) in H; by vm_compute in H.

(** ** C83: what the client reports to the server *)
(** Sent together with what the next update will send, every entity is reported
    at most once as created and at most once as destroyed; created are exactly
    those the user tagged, destroyed exactly those an action of the user took
    away. *)
Theorem C83_reports s0 os s : runs s0 os s →
  NoDup (sent_created (c_out s) ++ created_next s) ∧ NoDup (sent_destroyed (c_out s) ++ destroyed_next s) ∧
  (∀ e, e ∈ sent_created (c_out s) ++ created_next s ↔ user_tagged os e) ∧
  (∀ e, e ∈ sent_destroyed (c_out s) ++ destroyed_next s ↔ user_destroyed s0 os e).
Proof.
  intros H. destruct (runs_reports _ _ _ H) as [A B]. destruct (runs_once _ _ _ H) as [C D]. done.
Qed.
(** An update leaves nothing to report. *)
Theorem C83_flush s0 os s s' : runs s0 os s → cstep s CUpdate = Ok s' → created_next s' = [] ∧ destroyed_next s' = [].
Proof. intros _ H%c_update_ok. split; [exact (u_cc _ _ H)|exact (u_cd _ _ H)]. Qed.
(** Nothing is reported outside an update. *)
Theorem C83_only_updates s0 os o s s' : runs s0 os s → o ≠ CUpdate → cstep s o = Ok s' →
  sent_created (c_out s') = sent_created (c_out s) ∧ sent_destroyed (c_out s') = sent_destroyed (c_out s).
Proof.
  intros _ Hn H. destruct (apath_out _ _ (cstep_apath _ _ _ Hn H)) as (new & -> & F).
  rewrite sent_created_app, sent_destroyed_app.
  assert (sent_created new = [] ∧ sent_destroyed new = []) as [-> ->]; [|by rewrite !app_nil_r].
  clear H. induction F as [|o' new Ho _ IH]; [done|]. unfold sent_created, sent_destroyed in *. destruct IH as [IH1 IH2].
  cbn. rewrite IH1, IH2. by destruct o'.
Qed.
(** An entity this client created is reported created before it is reported
    destroyed. *)
Theorem C83_order s0 os s o1 es o2 e : runs s0 os s → c_out s = o1 ++ ODestroy es :: o2 →
  e ∈ es → user_tagged os e → e ∈ sent_created o1.
Proof.
  intros H E Hin Ht. eapply (runs_ordered _ _ _ H); [exact E|exact Hin|]. by apply (runs_reports _ _ _ H).
Qed.
Print Assumptions C83_reports.
Print Assumptions C83_flush.
Print Assumptions C83_only_updates.
Print Assumptions C83_order.
Example ex83 : let os := [CClient 7; CUser UCreate; CUser (UTag 1); CUser UCreate; CUser (UTag 2); CUpdate;
                          CUser (UDestroy 1); CUser UCreate; CUser (UTag 3); CUpdate] in
  c_out (after os) = [OMap [(7, 0)]; OAssigned 0; OCreate [1; 2]; OCreate [3]; ODestroy [1]].
Proof. vm_compute. reflexivity. Qed.
(** Destroying a networked entity before the update that would have reported it
    is undefined behaviour. *)
Theorem C83_refuted_early_destroy : ∃ os s e, runs c0 os s ∧ user_tagged os e ∧ user_destroyed c0 os e ∧ cstep s CUpdate = UB.
Proof.
  exists [CUser UCreate; CUser (UTag 0); CUser (UDestroy 0)], (after [CUser UCreate; CUser (UTag 0); CUser (UDestroy 0)]), 0.
  split; [by apply after_runs|]. split; [by right; left|]. split; [|by vm_compute].
  exists (UDestroy 0), (after [CUser UCreate; CUser (UTag 0)]), (after [CUser UCreate; CUser (UTag 0); CUser (UDestroy 0)]).
  split; [|split].
  - exists [CUser UCreate; CUser (UTag 0)], []. split; [done|]. split; [by apply after_runs|by vm_compute].
  - yes.
  - no.
Qed.
Print Assumptions C83_refuted_early_destroy.
(** A networked entity destroyed by the user's handler of entity_entered is
    never reported. *)
Theorem C83_refuted_handler : ∃ os n s s', runs c0 os s ∧ cstep s (CEntered [n]) = Ok s' ∧
  UDestroy 1 ∈ ne_user n ∧ networked s 1 ∧ ¬ lives s' 1 ∧ 1 ∉ sent_destroyed (c_out s') ++ destroyed_next s'.
Proof.
  exists [CClient 7; CUser UCreate; CUser (UTag 1); CUpdate], (NEntry 9 [] None [UDestroy 1]),
    (after [CClient 7; CUser UCreate; CUser (UTag 1); CUpdate]),
    (after [CClient 7; CUser UCreate; CUser (UTag 1); CUpdate; CEntered [NEntry 9 [] None [UDestroy 1]]]).
  split; [by apply after_runs|]. split; [by vm_compute|]. split; [by left|]. split; [|split].
  - yes.
  - no.
  - yes.
Qed.
Print Assumptions C83_refuted_handler.

(** ** C84: local counterparts of the server's entities *)
(** At all times the correspondence is one to one. *)
Theorem C84_one_to_one s0 os s : runs s0 os s → ∀ r l, known s r = Some l ↔ known_local s l = Some r.
Proof. intros H. exact (runs_bij _ _ _ H). Qed.
Print Assumptions C84_one_to_one.
(** The steps in which the client makes counterparts: the packets that assign
    this client and that bring entities, and linking an asset. *)
Definition makes (o : cop) : bool :=
  match o with CClient _ | CCreate _ | CEntered _ | CUser (ULink _ _) => true | _ => false end.
(** In these steps no counterpart changes or is given up, every new one is
    announced to the server in that very step, and everything announced is new. *)
Theorem C84_announced s0 os s o s' : runs s0 os s → makes o = true → cstep s o = Ok s' →
  ∃ qs, announced (c_out s') = announced (c_out s) ++ qs ∧
    (∀ r l, known s' r = Some l ↔ known s r = Some l ∨ (r, l) ∈ qs) ∧
    (∀ r l, (r, l) ∈ qs → known s r = None ∧ known_local s l = None).
Proof.
  intros Hr Ho H. pose proof (runs_bij _ _ _ Hr) as B.
  assert (grows s s' []) as (_ & _ & qs & E & K & F).
  { destruct o as [[]| | | | | | | | | | |]; cbn [cstep ustep] in H; try done.
    - by eapply link_asset_grows.
    - by eapply recv_client_grows.
    - by eapply recv_create_grows.
    - by eapply recv_entered_grows. }
  rewrite app_nil_r in K, F. by exists qs.
Qed.
Print Assumptions C84_announced.
(** After a create packet every entity of it has a counterpart, nothing died, and
    the new counterparts are networked entities that did not exist before. *)
Theorem C84_created s0 os s cs s' : runs s0 os s → cstep s (CCreate cs) = Ok s' →
  (∀ c, c ∈ cs → is_Some (known s' (ce_r c))) ∧
  (∀ e, lives s e → lives s' e) ∧
  (∀ r l, known s r = None → known s' r = Some l →
     (∃ c, c ∈ cs ∧ ce_r c = r) ∧ ¬ lives s l ∧ lives s' l ∧ networked s' l).
Proof. intros Hr H. eapply recv_create_ok; [by eapply runs_wfw|by eapply runs_bij|exact H]. Qed.
Print Assumptions C84_created.
(** The server's answers about this client's own entities add exactly the pairs
    whose local entity still lives. *)
Theorem C84_answers s0 os s ps s' : runs s0 os s → cstep s (CMap ps) = Ok s' →
  c_w s' = c_w s ∧ c_out s' = c_out s ∧
  ∀ r l, known s' r = Some l ↔ known s r = Some l ∨ ((l, r) ∈ ps ∧ lives s l).
Proof. intros Hr H. eapply recv_map_known; [by eapply runs_bij|exact H]. Qed.
Print Assumptions C84_answers.
(** After the server destroys entities (or they exit the area of interest) none
    of them has a counterpart; only they and the entities their assets list lose
    theirs, and what loses its entity is destroyed; nothing else dies but the
    constraints and contacts of destroyed bodies; the user is told of every
    counterpart in order, beforehand. *)
Theorem C84_destroyed s0 os s rs s' : runs s0 os s → cstep s (CDestroy rs) = Ok s' →
  (∀ r, r ∈ rs → known s' r = None) ∧
  (∀ r l, known s' r = Some l → known s r = Some l) ∧
  (∀ r l, lost s s' r l → ¬ lives s' l ∧ (r ∈ rs ∨ listed s rs r)) ∧
  (∀ e, lives s' e → lives s e) ∧
  (∀ e, lives s e → ¬ lives s' e → (∃ r, lost s s' r e) ∨ ∃ a b, joins s e a b ∧ (¬ lives s' a ∨ ¬ lives s' b)) ∧
  c_out s' = c_out s ++ (OExited <$> omap (known s) rs).
Proof. intros Hr H. eapply recv_destroy_ok; [by eapply runs_bij|exact H]. Qed.
Print Assumptions C84_destroyed.
(** With an asset go the entities it lists. *)
Theorem C84_asset s0 os s r rs s' l es i r' : runs s0 os s → cstep s (CDestroy (r :: rs)) = Ok s' →
  known s r = Some l → lives s l → asset_of s l = Some es → (i, r') ∈ es →
  ∃ l', lost s s' r' l' ∧ ¬ lives s' l'.
Proof.
  intros Hr H Hk Hl Ha Hin. pose proof (runs_bij _ _ _ Hr) as B.
  destruct (recv_destroy_asset _ _ _ _ _ _ _ _ B H Hk Hl Ha Hin) as (l' & L). exists l'. split; [done|].
  destruct (recv_destroy_ok _ _ _ B H) as (_ & _ & D & _). by apply (D _ _ L).
Qed.
Print Assumptions C84_asset.
(** An action of the user other than linking an asset announces nothing and
    makes no counterpart; it gives up the counterpart of exactly those entities
    whose server's identifier equals that of a networked local entity the action
    took away. *)
Theorem C84_user s0 os s u s' : runs s0 os s → (∀ a f, u ≠ ULink a f) → cstep s (CUser u) = Ok s' →
  announced (c_out s') = announced (c_out s) ∧
  ∀ r l, known s' r = Some l ↔ known s r = Some l ∧ ¬ (networked s r ∧ ¬ lives s' r).
Proof. intros Hr Hu H. eapply ustep_known; [by eapply runs_imp|by eapply runs_wfw|by eapply runs_bij|done|exact H]. Qed.
Print Assumptions C84_user.
(** The remaining steps leave the correspondence alone. *)
Theorem C84_others s0 os s o s' : runs s0 os s →
  match o with CUpdate | CSnapshot _ _ _ _ | CSyncRes _ | CDelay _ | CClock _ | CSettings _ => True | _ => False end →
  cstep s o = Ok s' → ∀ r, known s' r = known s r.
Proof.
  intros Hr Ho H r. unfold known. destruct o; try done; cbn [cstep] in H; try (by injection H as <-).
  - apply c_update_ok in H. by rewrite (u_map _ _ H).
  - apply recv_snapshot_ok in H as [[_ ->]|(ls & us & _ & _ & _ & _ & Ek & _)]; [done|].
    apply (f_equal cx_map) in Ek. cbn in Ek. by rewrite Ek.
  - apply bind_ok in H as (l & _ & H). by injection H as <-.
Qed.
Print Assumptions C84_others.
(** A scene: two bodies and a constraint from the server, an asset with one
    linked entity, then the first body and the asset go. *)
Definition scene : list cop :=
  [CClient 7;
   CCreate [CEntry 20 true true (Some (Some 7)) None; CEntry 21 true true (Some None) None;
            CEntry 22 true false None (Some (20, 21))];
   CEntered [NEntry 30 [(5, 31)] (Some 8) [UCreate; ULink 4 [(5, 6)]]]].
Example ex84_scene :
  c_out (after scene) = [OMap [(7, 0)]; OAssigned 0; OMap [(20, 1); (21, 2); (22, 3)]; OEntered 4; OMap [(31, 6)]; OMap [(30, 4); (8, 5)]] ∧
  known (after scene) 31 = Some 6 ∧ joins (after scene) 3 1 2 ∧ asset_of (after scene) 4 = Some [(5, 31)].
Proof. vm_compute. by repeat split. Qed.
Example ex84_destroyed : let s := after scene in let s' := after (scene ++ [CDestroy [20; 30; 99]]) in
  c_out s' = c_out s ++ [OExited 1; OExited 4] ∧ known s' 31 = None ∧ known s' 22 = Some 3 ∧
  elements (cw_alive (c_w s')) = [0; 5; 2].
Proof. vm_compute. by repeat split. Qed.
(** Destroying one's own entity leaves its counterpart in place: when the server
    later creates an entity with that identifier, nothing is created. *)
Theorem C84_refuted_stale : ∃ os s cs s' r l, runs c0 os s ∧ cstep s (CCreate cs) = Ok s' ∧
  known s r = Some l ∧ ¬ lives s l ∧ (∃ c, c ∈ cs ∧ ce_r c = r) ∧ known s' r = Some l ∧ ¬ lives s' l.
Proof.
  set (os := [CClient 7; CUser UCreate; CUser (UTag 1); CUpdate; CMap [(1, 40)]; CUser (UDestroy 1); CUpdate]).
  set (cs := [CEntry 40 true true None None]).
  exists os, (after os), cs, (after (os ++ [CCreate cs])), 40, 1.
  split; [by apply after_runs|]. split; [by vm_compute|]. split; [by vm_compute|].
  split; [no|].
  split; [by exists (CEntry 40 true true None None); split; [left|]|]. split; [by vm_compute|].
  no.
Qed.
Print Assumptions C84_refuted_stale.
(** And it forgets the unrelated entity whose identifier on the server equals
    the local one: when the server destroys that entity it stays here. *)
Theorem C84_refuted_forgotten : ∃ os s s' s2 r l, runs c0 os s ∧ known s r = Some l ∧ r ≠ l ∧
  cstep s (CUser (UDestroy r)) = Ok s' ∧ known s' r = None ∧ lives s' l ∧ cstep s' (CDestroy [r]) = Ok s2 ∧ lives s2 l.
Proof.
  set (os := [CClient 7; CUser UCreate; CUser (UTag 1); CUpdate; CCreate [CEntry 1 true true None None]]).
  exists os, (after os), (after (os ++ [CUser (UDestroy 1)])), (after (os ++ [CUser (UDestroy 1); CDestroy [1]])), 1, 2.
  split; [by apply after_runs|]. split; [by vm_compute|]. split; [done|]. split; [by vm_compute|].
  split; [by vm_compute|]. split; [|split; [by vm_compute|]]; yes.
Qed.
Print Assumptions C84_refuted_forgotten.
(** When an asset that was never linked exits, the behaviour is undefined. *)
Theorem C84_refuted_unlinked : ∃ os s r l es, runs c0 os s ∧ known s r = Some l ∧ asset_of s l = Some es ∧ es ≠ [] ∧
  cstep s (CDestroy [r]) = UB.
Proof.
  set (os := [CClient 7; CEntered [NEntry 30 [(5, 31)] None []]]).
  exists os, (after os), 30, 1, [(5, 31)]. split; [by apply after_runs|]. by vm_compute.
Qed.
Print Assumptions C84_refuted_unlinked.

(** ** C85: which entities count as this client's *)
(** In an execution whose create packets change no owner, and in which this
    client is assigned while no entity has an owner, the entities that count as
    owned are exactly those whose owner is this client. *)
Theorem C85_owned s0 os s : runs s0 os s → orderly s0 os →
  ∀ e, owned s e ↔ owner_of s e = Some (this_client s).
Proof. exact (runs_own s0 os s). Qed.
(** An update gives the user's new entities to this client, and changes no other
    owner. *)
Theorem C85_update s0 os s s' : runs s0 os s → orderly s0 os → cstep s CUpdate = Ok s' →
  (∀ e, e ∈ created_next s → owner_of s e = None ∧ owner_of s' e = Some (this_client s) ∧ owned s' e) ∧
  (∀ e, e ∉ created_next s → owner_of s' e = owner_of s e).
Proof.
  intros Hr Ho H. destruct (c_update_own _ _ H (runs_own _ _ _ Hr Ho)) as (O & Em & Hi & Hn).
  split; [|done]. intros e He. destruct (Hi _ He) as [H1 H2]. split; [done|]. split; [done|].
  apply O. by rewrite H2, Em.
Qed.
Print Assumptions C85_owned.
Print Assumptions C85_update.
Lemma scene_orderly : orderly c0 (scene ++ [CUser UCreate; CUser (UTag 7); CUpdate; CDestroy [20]]).
Proof.
  split.
  - intros cs s s' (os1 & os2 & E & [_ Hr] & _).
    assert (os1 = [CClient 7]) as ->.
    { clear Hr. destruct os1 as [|a1 [|a2 [|a3 [|a4 [|a5 [|a6 [|a7 os1]]]]]]]; try done; injection E; intros; subst; try done.
      by destruct os1. }
    injection E as <- _.
    assert (s = after [CClient 7]) as -> by (unfold after; rewrite Hr; reflexivity). clear Hr. split.
    + yes.
    + intros c l o p [->|[->|[->|H]%elem_of_cons]%elem_of_cons]%elem_of_cons Hk; try (by vm_compute in Hk).
  - intros r s s' (os1 & os2 & E & [_ Hr] & _) e.
    assert (os1 = []) as ->.
    { clear Hr. destruct os1 as [|a1 [|a2 [|a3 [|a4 [|a5 [|a6 [|a7 os1]]]]]]]; try done; injection E; intros; subst; try done.
      by destruct os1. }
    cbn [crun] in Hr. injection Hr as <-. reflexivity.
Qed.
Example ex85 :
  elements (cx_owned (c_k (after (scene ++ [CUser UCreate; CUser (UTag 7); CUpdate])))) = [1; 7] ∧
  elements (cx_owned (c_k (after (scene ++ [CUser UCreate; CUser (UTag 7); CUpdate; CDestroy [20]])))) = [7] ∧
  owner_of (after scene) 6 = Some (Some 5) ∧ owner_of (after scene) 2 = Some None.
Proof. vm_compute. by repeat split. Qed.
(** Entities reported before this client is assigned have no owner but count as
    owned, even after they are destroyed. *)
Theorem C85_refuted_early : ∃ os s s' e, runs c0 os s ∧ owned s e ∧ owner_of s e = Some None ∧ this_client s ≠ None ∧
  cstep s (CUser (UDestroy e)) = Ok s' ∧ owned s' e ∧ ¬ lives s' e.
Proof.
  set (os := [CUser UCreate; CUser (UTag 0); CUpdate; CClient 7]).
  exists os, (after os), (after (os ++ [CUser (UDestroy 0)])), 0. split; [by apply after_runs|].
  split; [yes|]. split; [by vm_compute|]. split; [by vm_compute|].
  split; [by vm_compute|]. split; [yes|].
  no.
Qed.
(** When the server changes the owner of an entity, what counts as owned is not
    changed, and the destruction of an entity given to this client is undefined
    behaviour. *)
Theorem C85_refuted_transfer : ∃ os s r e, runs c0 os s ∧ known s r = Some e ∧ owner_of s e = Some (this_client s) ∧
  this_client s ≠ None ∧ ¬ owned s e ∧ cstep s (CDestroy [r]) = UB.
Proof.
  set (os := [CClient 7; CCreate [CEntry 20 true true (Some None) None]; CCreate [CEntry 20 true true (Some (Some 7)) None]]).
  exists os, (after os), 20, 1. split; [by apply after_runs|]. split; [by vm_compute|]. split; [by vm_compute|].
  split; [by vm_compute|]. split; [|by vm_compute].
  no.
Qed.
Print Assumptions C85_refuted_early.
Print Assumptions C85_refuted_transfer.

(** ** C86: the entities of the extrapolation worker *)
(** After an update the worker has exactly the bodies, external entities and
    constraints of the simulation. *)
Theorem C86_same s0 os s s' : runs s0 os s → cstep s CUpdate = Ok s' → ∀ e, e ∈ worker (c_out s') ↔ simulated s' e.
Proof. intros Hr H. exact (proj2 (update_wki _ _ H (runs_wki _ _ _ Hr))). Qed.
(** What an update hands over are, once each, the simulated entities the worker
    does not have, with exactly the owned ones among them named as such. *)
Theorem C86_handed s0 os s s' o1 es ow o2 : runs s0 os s → cstep s CUpdate = Ok s' →
  c_out s' = c_out s ++ o1 ++ OWCreate es ow :: o2 →
  es ≠ [] ∧ NoDup es ∧ (∀ e, e ∈ es ↔ simulated s' e ∧ e ∉ worker (c_out s ++ o1)) ∧
  (∀ e, e ∈ ow ↔ e ∈ es ∧ owned s' e).
Proof. intros Hr H. exact (update_creates _ _ _ _ _ _ (runs_wki _ _ _ Hr) H). Qed.
(** When a request is sent the worker's entities are those of the simulation. *)
Theorem C86_request s0 os s s' o1 es t o2 : runs s0 os s → cstep s CUpdate = Ok s' →
  c_out s' = c_out s ++ o1 ++ ORequest es t :: o2 → ∀ e, e ∈ worker (c_out s ++ o1) ↔ simulated s' e.
Proof. intros Hr H. exact (update_requests _ _ _ _ _ _ (runs_wki _ _ _ Hr) H). Qed.
(** Nothing is sent to the worker outside an update. *)
Theorem C86_only_updates s0 os o s s' : runs s0 os s → o ≠ CUpdate → cstep s o = Ok s' →
  ∃ new, c_out s' = c_out s ++ new ∧
    Forall (λ m, match m with OWCreate _ _ | OWDestroy _ | ORequest _ _ => False | _ => True end) new.
Proof.
  intros _ Hn H. destruct (apath_out _ _ (cstep_apath _ _ _ Hn H)) as (new & E & F). exists new. split; [done|].
  eapply Forall_impl; [exact F|]. by intros [].
Qed.
Print Assumptions C86_same.
Print Assumptions C86_handed.
Print Assumptions C86_request.
Print Assumptions C86_only_updates.
Example ex86 : let s := after (scene ++ [CUpdate; CUser UCreate; CUser (UManifold 7 1 2); CSnapshot 20 10 [20; 21] true;
                                         CDestroy [20]; CUpdate]) in
  c_out s = c_out (after scene) ++ [OWCreate [1; 2; 3] [1]; OInput [2] 18 8; OExited 1; OWDestroy [3; 7; 1]; ORequest [1; 2] 18]
  ∧ elements (worker (c_out s)) = [2].
Proof. vm_compute. by repeat split. Qed.

(** ** C87: snapshots *)
(** A snapshot never fails.  If one of its entities has no living counterpart
    nothing changes; otherwise the registry is left alone, the inputs of exactly
    the entities that are not owned are stored, and the snapshot is either
    queued for extrapolation, if it describes an instant more than a step ago
    and extrapolation is enabled, or applied. *)
Theorem C87_snapshot s0 os s now ts rs some : runs s0 os s → ∃ s', cstep s (CSnapshot now ts rs some) = Ok s' ∧
  (((¬ ∃ ls, translates s rs ls) ∧ s' = s) ∨
   ∃ ls us, translates s rs ls ∧ NoDup us ∧ (∀ e, e ∈ us ↔ e ∈ ls ∧ ¬ owned s e) ∧
    let t := snapshot_instant s now ts in
    let d := clock_difference s now ts in
    let late := (now - t > cx_dt (c_k s))%Z ∧ cx_extr (c_k s) = true in
    c_w s' = c_w s ∧ (∀ r, known s' r = known s r) ∧
    (late → requests_next s' = requests_next s ++ [(ls, t)] ∧ c_out s' = c_out s ++ inputs_out us t d) ∧
    (¬ late → requests_next s' = requests_next s ∧
              c_out s' = c_out s ++ inputs_out us t d ++ (if some then [OSnap ls] else []))).
Proof.
  intros Hr. destruct (recv_snapshot_total s now ts rs some) as (s' & H). exists s'. split; [exact H|].
  apply recv_snapshot_ok in H as [H|(ls & us & T & D & U & W & K & L & N)]; [by left|]. right. exists ls, us.
  split; [done|]. split; [done|]. split; [done|]. cbv zeta. split; [done|]. split; [|done].
  intros r. unfold known. apply (f_equal cx_map) in K. cbn in K. by rewrite K.
Qed.
(** Requests reach the worker in the order the snapshots came in, each once:
    what was sent together with what waits grows only by late snapshots. *)
Theorem C87_requests s0 os s o s' : runs s0 os s → cstep s o = Ok s' →
  let all s := sent_requests (c_out s) ++ requests_next s in
  all s' = all s ∨
  ∃ now ts rs some ls, o = CSnapshot now ts rs some ∧ translates s rs ls ∧
    (now - snapshot_instant s now ts > cx_dt (c_k s))%Z ∧ cx_extr (c_k s) = true ∧
    all s' = all s ++ [(ls, snapshot_instant s now ts)].
Proof.
  intros _ H. destruct (cstep_reqs _ _ _ H) as [E|(now & ts & rs & some & ls & -> & T & [L1 L2] & E)]; [by left|].
  right. by exists now, ts, rs, some, ls.
Qed.
(** An update sends all that wait. *)
Theorem C87_flush s0 os s s' : runs s0 os s → cstep s CUpdate = Ok s' →
  requests_next s' = [] ∧ sent_requests (c_out s') = sent_requests (c_out s) ++ requests_next s.
Proof.
  intros _ H. pose proof (u_p _ _ (c_update_ok _ _ H)) as E. split; [exact E|].
  destruct (cstep_reqs s CUpdate s' H) as [Hr|(? & ? & ? & ? & ? & [=] & _)].
  unfold reqs, requests_next in Hr. rewrite E, app_nil_r in Hr. exact Hr.
Qed.
Print Assumptions C87_snapshot.
Print Assumptions C87_requests.
Print Assumptions C87_flush.
Example ex87 : let s := after (scene ++ [CClock 5; CDelay 1; CSnapshot 20 10 [20; 21] true; CSnapshot 15 10 [21] true;
                                         CSnapshot 20 11 [21; 99] true; CSnapshot 30 12 [21] false]) in
  c_out s = c_out (after scene) ++ [OInput [2] 14 5; OInput [2] 14 5; OSnap [2]; OInput [2] 16 5] ∧
  requests_next s = [([1; 2], 14%Z); ([2], 16%Z)].
Proof. vm_compute. by repeat split. Qed.

(** C33: what the packets of a client may destroy, change and take over. *)
From Verif Require Import Outcome FreeListModel GraphModel GraphSpec GraphHist GraphMain MapModel OwnModel OwnSpec OwnProofs OwnSnap OwnMain.

(** A destroy packet removes exactly the named entities the client owns and the
    constraints attached to them, and changes nothing else. *)
Theorem C33_destroy :
  ∀ s c cl m rs,
  wok (s_world s) m → s_clients s !! c = Some cl → (∀ e, owns (s_world s) c e → e ∈ cl_owned cl) →
  ∃ s' m', process_destroy s c rs = Ok s' ∧ wok (s_world s') m' ∧
    (∀ e, e ∈ w_valid (s_world s') ↔ e ∈ w_valid (s_world s) ∧
       ¬ named_own (s_world s) cl c rs e ∧
       ¬ ∃ b, named_own (s_world s) cl c rs b ∧ attached m e b) ∧
    (∀ e t, e ∈ w_valid (s_world s') → w_comps (s_world s') !! (t, e) = w_comps (s_world s) !! (t, e)) ∧
    (∀ c', c' ≠ c → s_clients s' !! c' = s_clients s !! c').
Proof. exact destroy_main. Qed.
Print Assumptions C33_destroy.

(** A client that leaves takes with it the entities it created. *)
Theorem C33_leave :
  ∀ s c cl m,
  wok (s_world s) m → s_clients s !! c = Some cl → c ∈ w_valid (s_world s) → c ∉ cl_owned cl →
  (∀ k, ¬ is_edge m k c) →
  let gone x := x = c ∨ x ∈ cl_owned cl ∧ x ∈ w_valid (s_world s) in
  ∃ s' m', destroy_client s c = Ok s' ∧ wok (s_world s') m' ∧
    (∀ e, e ∈ w_valid (s_world s') ↔ e ∈ w_valid (s_world s) ∧ ¬ gone e ∧ ¬ ∃ b, gone b ∧ attached m e b) ∧
    (∀ e t, e ∈ w_valid (s_world s') → w_comps (s_world s') !! (t, e) = w_comps (s_world s) !! (t, e)) ∧
    s_clients s' = delete c (s_clients s).
Proof. exact leave_main. Qed.
Print Assumptions C33_leave.

(** A snapshot applied right away creates and destroys nothing and changes only
    what the client may set. *)
Theorem C33_snapshot_effect :
  ∀ s c cl sn m s1 s2,
  wok (s_world s) m → s_clients s !! c = Some cl → cl_queue cl = [] →
  receive_snapshot s c sn = Ok s1 → apply_front s1 c = Ok s2 →
  same_shape (s_world s) (s_world s2) ∧
  (∀ t e, w_comps (s_world s2) !! (t, e) ≠ w_comps (s_world s) !! (t, e) → allowed (s_world s) m c t e).
Proof. exact snapshot_effect. Qed.
Print Assumptions C33_snapshot_effect.

(** Nothing the client may set is lost: the entries queued are exactly those it
    may set, in local terms (histories are merged at once). *)
Theorem C33_snapshot_received :
  ∀ s c cl sn m ents,
  wok (s_world s) m → s_clients s !! c = Some cl → local_ents cl sn = Some ents →
  (∀ p kv, p ∈ sn_pools sn → is_empty_type (p_type p) = false → kv ∈ p_items p →
     ∃ e, ents !! kv.1 = Some e ∧
       (e ∈ w_valid (s_world s) → checks_owner (p_type p) = true ∨ ∃ i, stands_for (s_world s) m e i) ∧
       (p_type p = THistory → e ∈ w_valid (s_world s) → owns (s_world s) c e → is_Some (w_comps (s_world s) !! (THistory, e)))) →
  ∃ s' ps', receive_snapshot s c sn = Ok s' ∧
    (∃ cl' q, s_clients s' !! c = Some cl' ∧ cl_queue cl' = cl_queue cl ++ q ∧
       (ps' = [] ∧ q = [] ∨ ps' ≠ [] ∧ q = [Snapshot ents ps'])) ∧
    (∀ t e v', t ≠ THistory → item_in ents ps' t e v' ↔
       allowed (s_world s) m c t e ∧ ∃ v, v' = map_child (cl_map cl) t v ∧ item_in ents (sn_pools sn) t e v).
Proof. exact receive_total. Qed.
Print Assumptions C33_snapshot_received.

(** Applying the snapshot in front of the queue sets components that exist, to
    values it carries, and sets all of them that exist. *)
Theorem C33_snapshot_applied :
  ∀ s c cl sn q s',
  s_clients s !! c = Some cl → cl_queue cl = sn :: q → apply_front s c = Ok s' →
  same_shape (s_world s) (s_world s') ∧
  (∀ t e, w_comps (s_world s') !! (t, e) ≠ w_comps (s_world s) !! (t, e) →
     e ∈ w_valid (s_world s) ∧ ∃ v, item_in (sn_ents sn) (sn_pools sn) t e v ∧ w_comps (s_world s') !! (t, e) = Some v) ∧
  (∀ t e, is_Some (w_comps (s_world s') !! (t, e)) ↔ is_Some (w_comps (s_world s) !! (t, e))) ∧
  (∀ t e v, item_in (sn_ents sn) (sn_pools sn) t e v → e ∈ w_valid (s_world s) → is_Some (w_comps (s_world s) !! (t, e)) →
     ∃ v', item_in (sn_ents sn) (sn_pools sn) t e v' ∧ w_comps (s_world s') !! (t, e) = Some v') ∧
  s_clients s' = <[c := Client (cl_map cl) (cl_owned cl) (cl_aoi cl) (cl_full cl) q]> (s_clients s).
Proof. exact apply_sound. Qed.
Print Assumptions C33_snapshot_applied.

(** No component of a body of another client may be set. *)
Theorem C33_foreign_body :
  ∀ w m c c' e i t, wok w m → is_node m i e → owns w c' e → c' ≠ c → ¬ allowed w m c t e.
Proof. exact foreign_body. Qed.
Print Assumptions C33_foreign_body.

(** Over any history of packets of any clients: whatever a snapshot changes when
    it is applied was allowed when it was received. *)
Theorem C33_history :
  ∀ s0 os s c s' t e,
  (∀ c cl, s_clients s0 !! c = Some cl → cl_queue cl = []) →
  srun s0 os = Ok s → sstep s (OpApply c) = Ok s' →
  w_comps (s_world s') !! (t, e) ≠ w_comps (s_world s) !! (t, e) →
  ∃ os1 sn os2 s1, os = os1 ++ OpSnapshot c sn :: os2 ∧ srun s0 os1 = Ok s1 ∧
    ∀ m1, wok (s_world s1) m1 → allowed (s_world s1) m1 c t e.
Proof. exact history_main. Qed.
Print Assumptions C33_history.

(** A client's update of the entity map adds exactly the pairs whose entity
    exists. *)
Theorem C33_update_map :
  ∀ s c ps s', process_update_map s c ps = Ok s' →
  ∃ cl cl', s_clients s !! c = Some cl ∧ s_clients s' = <[c := cl']> (s_clients s) ∧
    s_world s' = s_world s ∧ cl_owned cl' = cl_owned cl ∧ cl_queue cl' = cl_queue cl ∧
    (∀ r e, em_map (cl_map cl') !! r = Some e ↔
       em_map (cl_map cl) !! r = Some e ∨ (e, r) ∈ ps ∧ e ∈ w_valid (s_world s)).
Proof. exact update_map_main. Qed.
Print Assumptions C33_update_map.

(** A create packet leaves alone every existing entity it does not name. *)
Theorem C33_create_frame :
  ∀ s c cl sn s' e,
  s_clients s !! c = Some cl → process_create s c sn = Ok s' →
  e < w_next (s_world s) → (∀ r, r ∈ sn_ents sn → em_map (cl_map cl) !! r ≠ Some e) →
  kept (s_world s) (s_world s') e.
Proof. exact create_main. Qed.
Print Assumptions C33_create_frame.

(** ** A concrete server
    Clients 0 and 1.  Each tells the server how it calls its own client entity
    (100); client 0 creates a body (entity 2), client 1 creates two bodies with
    a history and an input (3, 4) and a constraint between them (5). *)
Definition c33_cl (full : bool) : client := Client em_empty ∅ ∅ full [].
Definition c33_s0 (full : bool) : server :=
  Server (World {[0; 1]} 2 ∅ ∅ ∅ g_empty) {[0 := c33_cl true; 1 := c33_cl full]}.
Definition c33_body (k v : nat) : list (ctype * (nat * list (option nat))) :=
  [(TTag 1, (k, [])); (TTag 3, (k, [])); (TPlain 0, (k, [Some v]))].
Definition c33_pools (l : list (ctype * (nat * list (option nat)))) : list pool := map (λ x, Pool x.1 [x.2]) l.
Definition c33_setup : list sop :=
  [OpMap 0 [(0, 100)]; OpMap 1 [(1, 100)];
   OpCreate 0 (Snapshot [10] (c33_pools (c33_body 0 7)));
   OpCreate 1 (Snapshot [20; 21; 22] (c33_pools (c33_body 0 8 ++ c33_body 1 9 ++
      [(THistory, (0, [Some 1])); (TInput 0, (0, [Some 2])); (TCon, (2, [Some 20; Some 21; Some 50]))])))].

(** A checkable form of [wok]. *)
Definition wok_check (w : world) (m : mgraph) : bool :=
  bool_decide (map_Forall (λ e i, fst <$> mg_nodes m !! i = Some e ∧ e ∈ w_valid w ∧ w_edge w !! e = None) (w_node w)) &&
  bool_decide (map_Forall (λ i v, w_node w !! v.1 = Some i) (mg_nodes m)) &&
  bool_decide (map_Forall (λ e k, (λ v, v.1.1) <$> mg_edges m !! k = Some e ∧ e ∈ w_valid w) (w_edge w)) &&
  bool_decide (map_Forall (λ k v, w_edge w !! v.1.1 = Some k) (mg_edges m)) &&
  bool_decide (map_Forall (λ te _, te.2 ∈ w_valid w) (w_comps w)).
Lemma wok_check_sound w m cleared : hist cleared (w_graph w) m → wok_check w m = true → wok w m.
Proof.
  unfold wok_check. rewrite !andb_true_iff, !bool_decide_eq_true. intros Hh [[[[H1 H2] H3] H4] H5]. split.
  - by eexists.
  - intros e i. split.
    + intros He. destruct (H1 _ _ He) as (Hn & _). destruct (mg_nodes m !! i) as [[x nc]|]; [|done].
      injection Hn as ->. by exists nc.
    + intros [nc Hn]. exact (H2 _ _ Hn).
  - intros e k. split.
    + intros He. destruct (H3 _ _ He) as (Hn & _). destruct (mg_edges m !! k) as [[[x a] b]|]; [|done].
      injection Hn as ->. by exists a, b.
    + intros (a & b & Hn). exact (H4 _ _ Hn).
  - intros e i k He Hk. destruct (H1 _ _ He) as (_ & _ & Hn). congruence.
  - intros e i He. by destruct (H1 _ _ He) as (_ & ? & _).
  - intros e i He. by destruct (H3 _ _ He) as (_ & ?).
  - intros t e [v Hv]. exact (H5 _ _ Hv).
Qed.

Global Instance c33_node_dec : EqDecision node. Proof. solve_decision. Defined.
Global Instance c33_edge_dec : EqDecision edge. Proof. solve_decision. Defined.
Global Instance c33_adj_dec : EqDecision adjacency. Proof. solve_decision. Defined.
Global Instance c33_fl_dec {A} `{EqDecision A} : EqDecision (free_list A). Proof. solve_decision. Defined.
Global Instance c33_graph_dec : EqDecision graph. Proof. solve_decision. Defined.

Global Instance c33_res_dec {A} `{EqDecision A} : EqDecision (res A). Proof. solve_decision. Defined.

Definition c33_graph_ops : list mop :=
  [MInsertNode 2 false; MInsertNode 3 false; MInsertNode 4 false; MInsertEdge 5 1 2].
Definition c33_snap : snapshot := Snapshot [20] [Pool (TPlain 0) [(0, [Some 77])]].
(** Everything about the setup that is computed, as one boolean. *)
Definition c33_facts (s : server) (cl : client) (g : graph) (m : mgraph) : bool :=
  bool_decide (w_graph (s_world s) = g) && wok_check (s_world s) m &&
  bool_decide (mg_nodes m !! 1 = Some (3, false)) && bool_decide (mg_edges m !! 0 = Some (5, 1, 2)) &&
  bool_decide (map_Forall (λ _ v, v.1.1 ≠ 1) (mg_edges m)) &&
  bool_decide (accepted (s_world s) 1 (TPlain 0) 3 = Ok true) && bool_decide (accepted (s_world s) 1 (TInput 0) 3 = Ok true) &&
  owned_by (s_world s) 1 3 && bool_decide (3 ∈ w_valid (s_world s)) && bool_decide (1 ∈ w_valid (s_world s)) &&
  (match cl_queue cl with [] => true | _ => false end) &&
  bool_decide (set_Forall (λ te : ctype * nat, owned_by (s_world s) 1 te.2 = true → te.2 ∈ cl_owned cl) (dom (w_comps (s_world s)))) &&
  bool_decide (em_map (cl_map cl) !! 20 = Some 3) && bool_decide (1 ∉ cl_owned cl) &&
  bool_decide (w_comps (s_world s) !! (TPlain 0, 3) = Some [Some 8]) &&
  (match receive_snapshot s 1 c33_snap with
   | Ok s1 => match apply_front s1 1 with Ok s2 => bool_decide (w_comps (s_world s2) !! (TPlain 0, 3) = Some [Some 77]) | _ => false end
   | _ => false end) &&
  (match process_destroy s 1 [20] with
   | Ok s1 => bool_decide (elements (w_valid (s_world s1)) = elements ({[0; 1; 2; 4]} : gset nat)) | _ => false end).
Definition c33_check : bool :=
  match srun (c33_s0 true) c33_setup, run_check c33_graph_ops g_empty mg_empty with
  | Ok s, Some (g, m) => match s_clients s !! 1 with Some cl => c33_facts s cl g m | None => false end
  | _, _ => false
  end.
Lemma c33_check_true : c33_check = true.
Proof. vm_compute. reflexivity. Qed.

(** The setup runs, gives a well formed world in which client 1 owns exactly
    what it listed; client 1 may set the plain component of its body and the
    input, client 0 may not; and a snapshot of client 1 meeting the hypotheses of
    the theorems changes its body. *)
Example C33_case : ∃ s m cl, srun (c33_s0 true) c33_setup = Ok s ∧ wok (s_world s) m ∧
  s_clients s !! 1 = Some cl ∧ cl_queue cl = [] ∧ (∀ e, owns (s_world s) 1 e → e ∈ cl_owned cl) ∧
  named_own (s_world s) cl 1 [20] 3 ∧ attached m 5 3 ∧
  allowed (s_world s) m 1 (TPlain 0) 3 ∧ allowed (s_world s) m 1 (TInput 0) 3 ∧ ¬ allowed (s_world s) m 0 (TPlain 0) 3 ∧
  1 ∈ w_valid (s_world s) ∧ 1 ∉ cl_owned cl ∧ (∀ k, ¬ is_edge m k 1) ∧
  (∃ s1 s2, receive_snapshot s 1 c33_snap = Ok s1 ∧ apply_front s1 1 = Ok s2 ∧
     w_comps (s_world s2) !! (TPlain 0, 3) = Some [Some 77] ∧ w_comps (s_world s) !! (TPlain 0, 3) = Some [Some 8]) ∧
  (∃ s1, process_destroy s 1 [20] = Ok s1 ∧ elements (w_valid (s_world s1)) = elements ({[0; 1; 2; 4]} : gset nat)).
Proof.
  pose proof c33_check_true as HC. unfold c33_check in HC.
  destruct (srun (c33_s0 true) c33_setup) as [s| | |] eqn:Hs; [|discriminate HC..].
  destruct (run_check c33_graph_ops g_empty mg_empty) as [[g m]|] eqn:Hr; [|discriminate HC].
  assert (Hh : hist false g m) by (eapply run_check_sound; [apply hist_init| |exact Hr]; done).
  destruct (s_clients s !! 1) as [cl|] eqn:Hc; [|discriminate HC].
  clear Hs Hr. unfold c33_facts in HC. rewrite !andb_true_iff, !bool_decide_eq_true in HC.
  destruct HC as [[[[[[[[[[[[[[[[Hg Hwk] Hn1] He0] Hne] Ha1] Ha2] Ho] Hv3] Hv1] Hq] Hall] Hem] Hno] Hval] Hrec] Hdes].
  assert (Hw : wok (s_world s) m). { apply (wok_check_sound _ _ false); [by rewrite Hg|done]. }
  assert (Hown : ∀ c e, owned_by (s_world s) c e = true ↔ owns (s_world s) c e) by (intros; apply owned_by_spec).
  apply Hown in Ho.
  exists s, m, cl. split; [done|]. split; [done|]. split; [done|].
  split. { by destruct (cl_queue cl). }
  split.
  { intros e He. assert (Hin : (TOwner, e) ∈ dom (w_comps (s_world s))). { destruct He as [r He]. by apply elem_of_dom_2 in He. }
    apply (Hall _ Hin). by apply Hown. }
  split. { split_and!; [done|done|]. exists 20. split; [left|done]. }
  split. { exists 0, 1. split_and!; [by exists 1, 2|by exists false|]. by exists 2, 5; left. }
  split. { by apply (accepted_sound _ _ _ _ _ Hw). }
  split. { by apply (accepted_sound _ _ _ _ _ Hw). }
  split. { eapply (foreign_body _ _ 0 1 3 1 _ Hw); [by exists false|done|done]. }
  split; [done|]. split; [done|]. split. { intros k (i & j & Hk). by apply (Hne k _ Hk). }
  split.
  - destruct (receive_snapshot s 1 c33_snap) as [s1| | |]; [|discriminate Hrec..].
    destruct (apply_front s1 1) as [s2| | |] eqn:Hap; [|discriminate Hrec..].
    apply bool_decide_eq_true in Hrec. by exists s1, s2.
  - destruct (process_destroy s 1 [20]) as [s1| | |]; [|discriminate Hdes..].
    apply bool_decide_eq_true in Hdes. by exists s1.
Qed.

(** ** What a client can do beyond that *)
Definition after {A} (full : bool) (os : list sop) (f : server → A) : res A :=
  s ← srun (c33_s0 full) (c33_setup ++ os); Ok (f s).

(** A client that knows an entity of another client takes it over with a create
    packet: the packet may carry a new value for every component, the owner
    included.  (Destroying it then is undefined behaviour.) *)
Theorem C33_create_takes_over_refuted :
  after true [] (λ s, (w_owner (s_world s) 2, w_comps (s_world s) !! (TPlain 0, 2))) = Ok (Some (Some 0), Some [Some 7]) ∧
  after true [OpMap 1 [(2, 60)]; OpCreate 1 (Snapshot [60] [Pool TOwner [(0, [Some 100])]; Pool (TPlain 0) [(0, [Some 66])]])]
    (λ s, (w_owner (s_world s) 2, w_comps (s_world s) !! (TPlain 0, 2))) = Ok (Some (Some 1), Some [Some 66]) ∧
  after true [OpMap 1 [(2, 60)]; OpCreate 1 (Snapshot [60] [Pool TOwner [(0, [Some 100])]]); OpDestroy 1 [60]]
    (λ s, tt) = UB.
Proof. split_and!; vm_compute; reflexivity. Qed.
Print Assumptions C33_create_takes_over_refuted.

(** Full ownership is not looked at: a client without it sets the state of its bodies. *)
Theorem C33_full_ownership_ignored_refuted :
  after false [OpSnapshot 1 (Snapshot [20] [Pool (TPlain 0) [(0, [Some 77])]]); OpApply 1]
    (λ s, (cl_full <$> s_clients s !! 1, w_comps (s_world s) !! (TPlain 0, 3))) = Ok (Some false, Some [Some 77]).
Proof. vm_compute. reflexivity. Qed.
Print Assumptions C33_full_ownership_ignored_refuted.

(** Between reception and application another client reaches the body: the value
    is set although the snapshot would now be ignored. *)
Definition c33_link : list sop :=
  [OpMap 0 [(3, 61)]; OpCreate 0 (Snapshot [62] [Pool TCon [(0, [Some 10; Some 61])]])].
Theorem C33_stale_refuted :
  after true ([OpSnapshot 1 (Snapshot [20] [Pool (TPlain 0) [(0, [Some 77])]])] ++ c33_link ++ [OpApply 1])
    (λ s, (is_only_reachable_client (s_world s) 1 3, w_comps (s_world s) !! (TPlain 0, 3))) = Ok (Ok false, Some [Some 77]) ∧
  after true (c33_link ++ [OpSnapshot 1 (Snapshot [20] [Pool (TPlain 0) [(0, [Some 77])]]); OpApply 1])
    (λ s, w_comps (s_world s) !! (TPlain 0, 3)) = Ok (Some [Some 8]).
Proof. split; vm_compute; reflexivity. Qed.
Print Assumptions C33_stale_refuted.

(** Packets that are undefined behaviour on the server: an action history for an
    own entity without one, state for an entity that is not in the graph (here
    the client entity itself), an index out of range, and a second create packet
    for an own body with a mass. *)
Theorem C33_crash_refuted :
  after true [OpSnapshot 1 (Snapshot [21] [Pool THistory [(0, [Some 1])]])] (λ _, tt) = UB ∧
  after true [OpSnapshot 1 (Snapshot [100] [Pool (TPlain 0) [(0, [Some 1])]])] (λ _, tt) = UB ∧
  after true [OpSnapshot 1 (Snapshot [20] [Pool (TPlain 0) [(1, [Some 1])]])] (λ _, tt) = UB ∧
  is_ok (after true [OpCreate 1 (Snapshot [30] [Pool TMass [(0, [Some 1])]])] (λ _, tt)) = true ∧
  after true [OpCreate 1 (Snapshot [30] [Pool TMass [(0, [Some 1])]]); OpCreate 1 (Snapshot [30] [])] (λ _, tt) = UB.
Proof. split_and!; vm_compute; reflexivity. Qed.
Print Assumptions C33_crash_refuted.

(** An entity the application gave to the client without listing it among the
    client's entities cannot be destroyed by it: the owner check passes and the
    removal from the list is undefined behaviour. *)
Theorem C33_given_entity_refuted :
  process_destroy (Server (World {[1; 2]} 3 {[(TOwner, 2) := [Some 1]]} ∅ ∅ g_empty)
     {[1 := Client (EMap {[60 := 2]} {[2 := 60]}) ∅ ∅ true []]}) 1 [60] = UB.
Proof. vm_compute. reflexivity. Qed.
Print Assumptions C33_given_entity_refuted.

(** Destroying an own body destroys the constraint another client attached to it. *)
Theorem C33_foreign_constraint_refuted :
  after true (c33_link ++ []) (λ s, (owned_by (s_world s) 0 6, bool_decide (6 ∈ w_valid (s_world s)))) = Ok (true, true) ∧
  after true (c33_link ++ [OpDestroy 1 [20]]) (λ s, bool_decide (6 ∈ w_valid (s_world s))) = Ok false.
Proof. split; vm_compute; reflexivity. Qed.
Print Assumptions C33_foreign_constraint_refuted.

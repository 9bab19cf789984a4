(** C32: interest management. *)
From Verif Require Import AoiModel AoiSpec AoiProofs.
From stdpp Require Import gmap.
Local Open Scope nat_scope.

(** One evaluation of the area: the new entries of both lists are free of duplicates,
    disjoint, and exactly the difference of the two entity sets. *)
Theorem C32_deltas contained s :
  NoDup contained → NoDup (oi_ents s) →
  let s' := aoi_update contained s in
  ∃ ent ex, oi_entered s' = oi_entered s ++ ent ∧ oi_exited s' = oi_exited s ++ ex ∧ oi_ents s' = contained ∧
    NoDup ent ∧ NoDup ex ∧ (∀ e, e ∈ ent ↔ e ∈ contained ∧ e ∉ oi_ents s) ∧ (∀ e, e ∈ ex ↔ e ∈ oi_ents s ∧ e ∉ contained) ∧
    (list_to_set contained : gset nat) = (list_to_set (oi_ents s) ∖ list_to_set ex) ∪ list_to_set ent.
Proof.
  intros N1 N2 s'. exists (filter (λ e, e ∉ oi_ents s) contained), (filter (λ e, e ∉ contained) (oi_ents s)).
  split_and!; try done; try (by apply NoDup_filter).
  - intros e. rewrite elem_of_list_filter. tauto.
  - intros e. rewrite elem_of_list_filter. tauto.
  - apply set_eq. intros e. rewrite elem_of_union, elem_of_difference, !elem_of_list_to_set, !elem_of_list_filter.
    destruct (decide (e ∈ oi_ents s)), (decide (e ∈ contained)); tauto.
Qed.
Print Assumptions C32_deltas.

(** For every number of rounds, in which the client destroys some of its entities, the area
    is evaluated any number of times (such that an entity that shows up is still there when
    the packets are sent) and packets are sent: there is no failure, and afterwards the
    client has exactly the entities inside that belong to no asset and exactly the assets
    with an entity inside. *)
Theorem C32_client_knows asset rs :
  rounds_ok asset [] rs →
  ∃ s k, run_rounds rs aoi_init (Known ∅ ∅) = Ok (s, k) ∧ oi_ents s = inside_all [] rs ∧ knows asset (inside_all [] rs) k.
Proof.
  intros R. destruct (rounds_settled asset rs aoi_init _ (init_settled asset) R) as (s & k & E & S & I).
  exists s, k. split; [done|]. split; [done|]. destruct S as (_ & _ & _ & _ & _ & S). by rewrite I in S.
Qed.
Print Assumptions C32_client_knows.

(** In particular with one evaluation per round, as in the sequential mode, for any
    sequence of entity sets. *)
Lemma rounds_sequential asset : ∀ (sets : list (list nat)) prev,
  Forall (λ c, NoDup c ∧ (N.of_nat (length c) < 4294967296)%N) sets →
  rounds_ok asset prev ((λ c, Round asset [] [c]) <$> sets).
Proof.
  induction sets as [|c sets IH]; intros prev F; [done|]. apply Forall_cons in F as [F1 F2].
  cbn [fmap list_fmap rounds_ok]. split; [|by apply IH]. unfold round_ok. cbn.
  split_and!; [done|constructor|by constructor|].
  intros i j a b d e A B D L X Y. destruct i as [|i]; [|by destruct i]. destruct j as [|[|j]]; [lia| |done].
  cbn in *. congruence.
Qed.
Theorem C32_sequential asset (sets : list (list nat)) :
  Forall (λ c, NoDup c ∧ (N.of_nat (length c) < 4294967296)%N) sets →
  ∃ s k, run_rounds ((λ c, Round asset [] [c]) <$> sets) aoi_init (Known ∅ ∅) = Ok (s, k) ∧
    knows asset (default [] (last sets)) k.
Proof.
  intros F. destruct (C32_client_knows asset _ (rounds_sequential asset sets [] F)) as (s & k & E & _ & K).
  exists s, k. split; [done|]. assert (I : ∀ prev, inside_all prev ((λ c, Round asset [] [c]) <$> sets) = default prev (last sets)).
  { clear. induction sets as [|c sets IH]; intros prev; [done|]. cbn [fmap list_fmap inside_all].
    change (inside prev (Round asset [] [c])) with c.
    rewrite IH. destruct sets as [|d sets]; [done|]. rewrite last_cons_cons. destruct (last (d :: sets)) eqn:L; [done|]. by apply last_None in L. }
  by rewrite I in K.
Qed.
Print Assumptions C32_sequential.

(** In asynchronous mode two results can arrive between two rounds.  An entity that enters
    with the first and leaves with the second is reported as gone before it is created: the
    client keeps it, and is never told again. *)
Definition no_asset : nat → option nat := λ _, None.
Theorem C32_ghost_refuted (later : list round) :
  Forall (λ r, r_asset r = no_asset ∧ r_removed r = [] ∧ ∀ c, c ∈ r_updates r → c = []) later →
  ∃ s k, run_rounds (Round no_asset [] [[7]; []] :: later) aoi_init (Known ∅ ∅) = Ok (s, k) ∧
    oi_ents s = [] ∧ 7 ∈ k_ents k.
Proof.
  intros F. cbn [run_rounds].
  assert (E : do_round (Round no_asset [] [[7]; []]) aoi_init = Ok (aoi_init, [Destroyed [7]; Created [7]])) by reflexivity.
  rewrite E. cbn [mbind res_bind].
  lazymatch goal with |- context [run_rounds later aoi_init ?k0] =>
    assert (K : 7 ∈ k_ents k0) by (cbn; set_solver); revert K; generalize k0 end.
  induction F as [|r later (F1 & F2 & F3) F IH]; intros k K; cbn [run_rounds k_ents k_assets] in *.
  - by exists aoi_init, k.
  - assert (X : do_round r aoi_init = Ok (aoi_init, [])).
    { unfold do_round. rewrite F2. cbn [foldl].
      assert (Y : foldl (λ s c, aoi_update c s) aoi_init (r_updates r) = aoi_init).
      { revert F3. clear. induction (r_updates r) as [|c cs IH]; intros A; [done|]. cbn [foldl].
        rewrite (A c) by (by left). change (aoi_update [] aoi_init) with aoi_init. apply IH. intros d D. apply A. by right. }
      by rewrite Y. }
    rewrite X. cbn [mbind res_bind foldl]. apply IH. cbn. rewrite F2. set_solver.
Qed.
Print Assumptions C32_ghost_refuted.
(** An entity that enters twice between two rounds is pushed twice into a set that does not
    allow it. *)
Theorem C32_enter_twice_refuted : run_rounds [Round no_asset [] [[7]; []; [7]]] aoi_init (Known ∅ ∅) = UB.
Proof. reflexivity. Qed.
Print Assumptions C32_enter_twice_refuted.
(** When an entity of an asset is destroyed on the server (its component is gone when it is
    processed), the asset is never reported as gone. *)
Theorem C32_destroyed_entry_refuted :
  ∃ s k, run_rounds [Round (λ e, if e =? 7 then Some 9 else None) [] [[7]]; Round no_asset [] [[]]] aoi_init (Known ∅ ∅) = Ok (s, k) ∧
    oi_ents s = [] ∧ 9 ∈ k_assets k.
Proof.
  assert (X : ∃ s, run_rounds [Round (λ e, if e =? 7 then Some 9 else None) [] [[7]]; Round no_asset [] [[]]] aoi_init (Known ∅ ∅) =
    Ok (s, foldl hear (Known (k_ents (foldl hear (Known (∅ ∖ list_to_set []) ∅) [EnteredAssets [9]]) ∖ list_to_set []) (k_assets (foldl hear (Known (∅ ∖ list_to_set []) ∅) [EnteredAssets [9]]))) [Destroyed [7]]) ∧ oi_ents s = []).
  { eexists. split; [reflexivity|]. done. }
  destruct X as (s & E & I). eexists _, _. split; [exact E|]. split; [done|]. cbn. set_solver.
Qed.
Print Assumptions C32_destroyed_entry_refuted.

(** A case: 1 and 2 belong to asset 50, 3 to none; 2 leaves and returns before the packets
    are sent, the client destroys 3, finally all leave. *)
Definition c32_asset (e : nat) : option nat := if e <=? 2 then Some 50 else None.
Definition c32_rounds : list round :=
  [Round c32_asset [] [[1; 3]; [1; 2; 3]]; Round c32_asset [3] [[1]; [2; 1; 4]]; Round c32_asset [] []; Round c32_asset [] [[4; 2]; [4]]].
Example C32_case : rounds_ok c32_asset [] c32_rounds ∧ inside_all [] c32_rounds = [4] ∧
  (∃ s, run_rounds c32_rounds aoi_init (Known ∅ ∅) ≫= (λ x, Ok (x.1, elements (k_ents x.2), elements (k_assets x.2))) = Ok (s, [4], [])).
Proof.
  split; [|split; [done|by eexists; vm_compute]].
  unfold c32_rounds. cbn [rounds_ok]. unfold round_ok. cbn [r_asset r_removed r_updates inside default last without].
  assert (ST : ∀ a b, stays [a; b]).
  { intros a b i j x y z e X Y Z L. destruct i as [|i]; [|by destruct i]. destruct j as [|[|j]]; [lia| |done].
    cbn in *. congruence. }
  assert (ST3 : ∀ a b c, (∀ e, e ∉ a → e ∈ b → e ∈ c) → stays [a; b; c]).
  { intros a b c A i j x y z e X Y Z L. destruct i as [|[|i]]; [| |by destruct i].
    - destruct j as [|[|[|j]]]; [lia| | |done]; cbn in *; [congruence|]. injection X as <-. injection Y as <-. injection Z as <-. apply A.
    - destruct j as [|[|[|j]]]; [lia|lia| |done]. cbn in *. congruence. }
  assert (ND : ∀ l : list nat, bool_decide (NoDup l) = true → (N.of_nat (length l) <? 4294967296)%N = true →
     NoDup l ∧ (N.of_nat (length l) < 4294967296)%N).
  { intros l X Y. apply bool_decide_eq_true in X. by apply N.ltb_lt in Y. }
  assert (ST1 : ∀ a, stays [a]). { intros a i j x y z e X Y. by destruct i. }
  split_and!; try done; repeat (apply Forall_cons_2; [by try apply ND; try done|]); try apply Forall_nil_2.
  - apply ST3. vm_compute. set_solver.
  - apply ST3. vm_compute. set_solver.
  - apply ST3. vm_compute. set_solver.
Qed.

(** Theorems for C52, islands solved in parallel. *)
From Verif Require Import Outcome ParModel ParSpec ParProofs.

(** However the islands' jobs are scheduled, no deleted context is used and no
    assertion fails.  When [wait] returns every context was deleted, no job is
    left and the memory is that of solving the islands one after another, with
    the numbers of iterations cut to 8 bits and at least one velocity iteration. *)
Theorem C52_any_schedule {V} (k : code V) isles own shared chunks n p m os :
  separate k isles own shared → splits k chunks →
  ∃ s, p_run k n p chunks (p_init isles m) os = Ok s
    ∧ (p_count s = 0 →
        p_jobs s = [] ∧ p_todo s = [] ∧ (∀ i, i ∈ isles → p_ctx s !! i = None)
        ∧ p_mem s = run_all_seq k (1 `max` (n mod 256)) (p mod 256) isles m).
Proof.
  intros Sep Spl. destruct (inv_run k isles own shared n p Sep chunks Spl m _ _ os (inv_init k isles own shared n p Sep m))
    as (s & ph & E & I & _).
  exists s. split; [done|]. intros Hz. by apply (done_all k isles own shared n p Sep chunks Spl m s ph I Hz).
Qed.

(** With up to 255 iterations and at least one velocity iteration that is what the
    sequential solver does. *)
Theorem C52_same_as_sequential {V} (k : code V) isles own shared chunks n p m os s :
  separate k isles own shared → splits k chunks → 1 ≤ n < 256 → p < 256 →
  p_run k n p chunks (p_init isles m) os = Ok s → p_count s = 0 →
  p_mem s = run_all_seq k n p isles m.
Proof.
  intros Sep Spl Hn Hp E Hz. destruct (C52_any_schedule k isles own shared chunks n p m os Sep Spl) as (s' & E' & H).
  rewrite E in E'. injection E' as <-. destruct (H Hz) as (_ & _ & _ & ->).
  rewrite !Nat.mod_small by lia. by replace (1 `max` n) with n by lia.
Qed.

(** The order of the islands does not matter either, nor that of the bodies. *)
Theorem C52_order_irrelevant {V} (k : code V) isles isles' own shared n p m :
  separate k isles own shared → isles ≡ₚ isles' →
  run_all_seq k n p isles m = run_all_seq k n p isles' m.
Proof.
  intros Sep Hp. pose proof (sep_isles _ _ _ _ Sep) as Hn.
  assert (Hn' : NoDup isles') by (by rewrite <- Hp).
  apply map_eq. intros e. destruct (decide (Exists (λ i, e ∈ own i) isles)) as [Hex|Hex].
  - apply Exists_exists in Hex as (i & Hi & He).
    assert (Hi' : i ∈ isles') by (by rewrite <- Hp).
    assert (H : agree (own i) (run_all_seq k n p isles m) (run_all_seq k n p isles' m)); [|by apply H].
    intros e' He'.
    rewrite (seq_all_own k isles own shared Sep n p isles m m i Hn (λ _ H, H) Hi (agree_refl _ _) e' He').
    rewrite (seq_all_own k isles own shared Sep n p isles' m m i Hn' (λ j H, proj2 (elem_of_Permutation_proper j _ _ Hp) H) Hi' (agree_refl _ _) e' He').
    done.
  - assert (H : ∀ i, i ∈ isles → e ∉ own i).
    { intros i Hi He. apply Hex. apply Exists_exists. eauto. }
    rewrite (seq_all_other k isles own shared Sep n p isles); [|done|done].
    rewrite (seq_all_other k isles own shared Sep n p isles'); [done|..]; intros i Hi; rewrite <- Hp in Hi; auto.
Qed.

(** Until the counter is zero something is left to do, and only a bounded number
    of operations ever find something to do: [wait] returns. *)
Theorem C52_ends {V} (k : code V) isles own shared chunks n p m os s :
  separate k isles own shared → splits k chunks →
  p_run k n p chunks (p_init isles m) os = Ok s →
  (0 < p_count s → ∃ o, enabled s o = true)
  ∧ work k n p chunks (p_init isles m) os
      ≤ sum_list_with (λ i, 5 + 1 `max` (n mod 256) + length (chunks i) + p mod 256) isles.
Proof.
  intros Sep Spl E. destruct (inv_run k isles own shared n p Sep chunks Spl m _ _ os (inv_init k isles own shared n p Sep m))
    as (s' & ph & E' & I & H).
  rewrite E in E'. injection E' as <-. split.
  - intros Hz. destruct (progress k isles own shared n p Sep chunks Spl m s ph I Hz) as [Ht|Hj].
    + exists PStart. cbn. by rewrite bool_decide_eq_true_2.
    + exists (PRun 0). cbn. destruct (p_jobs s); [done|]. apply bool_decide_eq_true_2. cbn. lia.
  - change (total isles n p chunks (λ _, PhTodo))
      with (sum_list_with (λ i, 5 + 1 `max` (n mod 256) + length (chunks i) + p mod 256) isles) in H. lia.
Qed.

(** A case: island 1 has two bodies, island 2 has 65, split into three jobs; entity
    0 is a body both touch but do not change. *)
Section Case.
Definition cnodes (i : nat) : list nat := if bool_decide (i = 1) then [10; 11] else seq 20 65.
Definition ceach (g : nat → nat → nat) (i : nat) (m : gmap nat nat) : gmap nat nat :=
  let c := default 0 (m !! 0) in foldl (λ m e, alter (g c) e m) m (cnodes i).
Definition cfirst (i : nat) : nat := if bool_decide (i = 1) then 10 else 20.
Definition ccode : code nat :=
  Code (ceach (λ c v, v + c)) (ceach (λ c v, v + 2 * c)) (ceach (λ c v, v + 5))
       (λ i m, (ceach (λ _ v, v - 7) i m, bool_decide (default 0 (m !! cfirst i) ≤ 30))) (λ v, 3 * v) cnodes.
Definition cown (i : nat) : gset nat := list_to_set (cnodes i).
Definition cchunks (i : nat) : list (list nat) := [seq 60 25; seq 20 20; seq 40 20].
Definition cmem : gmap nat nat := list_to_map ((0, 1) :: ((λ e, (e, e)) <$> cnodes 1 ++ cnodes 2)).

Lemma ceach_local g i : local_to (cown i) {[0]} (ceach g i).
Proof.
  assert (H : ∀ c, local_to (cown i) {[0]} (λ m, foldl (λ m e, alter (g c) e m) m (cnodes i))).
  { intros c. apply (integrate_local (Code (ceach g) (ceach g) (ceach g) (λ i m, (m, true)) (g c) cnodes) cown {[0]}).
    intros e He. unfold cown. by apply elem_of_list_to_set. }
  split.
  - intros m e He. by apply H.
  - intros m m' Ha. unfold ceach. rewrite (Ha 0) by set_solver. by apply H.
Qed.
Lemma case_in i : i ∈ [1; 2] → i = 1 ∨ i = 2.
Proof. rewrite !elem_of_cons, elem_of_nil. tauto. Qed.
Example case_separate : separate ccode [1; 2] cown {[0]}.
Proof.
  split.
  - apply (bool_decide_unpack _). by vm_compute.
  - intros i j Hi Hj Hij. assert (D : cown 1 ## cown 2) by (apply (bool_decide_unpack _); by vm_compute).
    apply case_in in Hi as [-> | ->]; apply case_in in Hj as [-> | ->]; [congruence|exact D|by symmetry|congruence].
  - intros i Hi. apply case_in in Hi as [-> | ->]; apply (bool_decide_unpack _); by vm_compute.
  - intros. apply ceach_local.
  - intros. apply ceach_local.
  - intros. apply ceach_local.
  - intros i Hi. split; [apply ceach_local|]. intros m m' Ha. cbn. rewrite (Ha (cfirst i)); [done|].
    apply elem_of_union_l. apply case_in in Hi as [-> | ->]; apply (bool_decide_unpack _); by vm_compute.
  - intros i e _ He. unfold cown. by apply elem_of_list_to_set.
Qed.
Example case_splits : splits ccode cchunks.
Proof.
  intros i Hi. split; [done|]. unfold ccode, k_nodes, cnodes in *. case_bool_decide; [cbn in Hi; lia|].
  unfold cchunks. cbn [concat]. rewrite app_nil_r, Permutation_app_comm, <- !seq_app. done.
Qed.
Definition cend (n p : nat) (os : list pop) : option (nat * bool * bool) :=
  match p_run ccode n p cchunks (p_init [1; 2] cmem) os with
  | Ok s => Some (p_count s, bool_decide (p_mem s = cmem), bool_decide (p_mem s = run_all_seq ccode n p [1; 2] cmem))
  | _ => None
  end.
Definition sched1 : list pop := PStart :: PRun 0 :: PRun 0 :: PStart :: concat (replicate 40 [PRun 1; PRun 0]).
Definition sched2 : list pop := PStart :: PStart :: concat (replicate 20 [PRun 0; PRun 2; PRun 1]).
(** Midway the results are not there yet, in the end they are. *)
Example case_runs :
  cend 3 4 (take 10 sched1) = Some (2, false, false) ∧
  cend 3 4 sched1 = Some (0, false, true) ∧ cend 3 4 sched2 = Some (0, false, true).
Proof. vm_compute. done. Qed.
End Case.

(** The limits are needed: 0 and 256 velocity iterations become one, 256 position
    iterations none. *)
Theorem C52_iterations_refuted :
  ∃ (k : code nat) isles own shared chunks m os, separate k isles own shared ∧ splits k chunks ∧
    ∀ n p, (n, p) ∈ [(0, 1); (256, 1); (1, 256)] →
      ∃ s, p_run k n p chunks (p_init isles m) os = Ok s ∧ p_count s = 0
        ∧ p_mem s ≠ run_all_seq k n p isles m.
Proof.
  exists ccode, [1; 2], cown, {[0]}, cchunks, cmem, sched1.
  split; [apply case_separate|]. split; [apply case_splits|].
  assert (H : ∀ n p, cend n p sched1 = Some (0, false, false) →
    ∃ s, p_run ccode n p cchunks (p_init [1; 2] cmem) sched1 = Ok s ∧ p_count s = 0
        ∧ p_mem s ≠ run_all_seq ccode n p [1; 2] cmem).
  { intros n p. unfold cend. destruct (p_run _ _ _ _ _ _) as [s| | |] eqn:E; try done.
    intros [= H1 _ H2]. exists s. split; [done|]. split; [done|].
    by apply bool_decide_eq_false in H2. }
  intros n p Hin. apply H. repeat (apply elem_of_cons in Hin as [[= -> ->]|Hin]; [|]); [..|by apply elem_of_nil in Hin].
  all: vm_compute; done.
Qed.

(** Separation is needed: if two islands share a body that solving changes, the
    result depends on the schedule. *)
Definition scode : code nat :=
  Code (λ _ m, m) (λ i m, alter (λ v, if bool_decide (i = 1) then v + 1 else 2 * v) 7 m) (λ _ m, m)
       (λ _ m, (m, true)) (λ v, v) (λ _, []).
Theorem C52_shared_body_refuted :
  ∃ os os' s s',
    p_run scode 1 0 (λ _, []) (p_init [1; 2] {[7 := 1]}) os = Ok s ∧
    p_run scode 1 0 (λ _, []) (p_init [1; 2] {[7 := 1]}) os' = Ok s' ∧
    p_count s = 0 ∧ p_count s' = 0 ∧ p_mem s !! 7 ≠ p_mem s' !! 7.
Proof.
  exists (PStart :: PStart :: replicate 8 (PRun 0)), (PStart :: PStart :: replicate 4 (PRun 1) ++ replicate 4 (PRun 0)).
  eexists _, _. split; [vm_compute; reflexivity|]. split; [vm_compute; reflexivity|]. by vm_compute.
Qed.

Print Assumptions C52_any_schedule.
Print Assumptions C52_same_as_sequential.
Print Assumptions C52_order_irrelevant.
Print Assumptions C52_ends.
Print Assumptions C52_iterations_refuted.
Print Assumptions C52_shared_body_refuted.

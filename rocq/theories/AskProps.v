(** Theorems for C42, asynchronous queries.  [M] is the number of ids, 2^32. *)
From Verif Require Import Outcome AskModel AskSpec AskProofs.
Open Scope Z_scope.

(** As long as no more than [M] rays and [M] boxes are asked for, in every
    history: nothing is ever looked up that is not there, ids are all different
    per kind, no callback is called twice, and a callback is called with the ray
    and delegate of its own request and a right answer to it, translated to
    entities of the main thread. *)
Theorem C42_own_answer_once M w os :
  (∀ k, asked k os ≤ M)%nat →
  ∃ s, a_run M (a_init w) os = Ok s
    ∧ (∀ k, NoDup (issues k (a_log s))) ∧ (∀ k, NoDup (calls k (a_log s)))
    ∧ ∀ id k g d m ans', LCall id k g d m ans' ∈ a_log s →
        ∃ a, LIssue id a d ∈ a_log s ∧ ask_ray a = k ∧ ask_geo a = g
          ∧ (∀ a' d', LIssue id a' d' ∈ a_log s → ask_ray a' = k → a' = a ∧ d' = d)
          ∧ ∃ ans, answered (a_log s) k id ans ∧ ans' = translate m ans.
Proof.
  intros Hc. destruct (inv_run M (a_init w) os (inv_init M w)) as (s & E & I & _); [done|].
  exists s. split; [done|]. split; [|split].
  - intros k. rewrite (i_seq _ _ I). apply NoDup_seq.
  - intros k. assert (N : NoDup (seq 0 (count k s))) by apply NoDup_seq. rewrite <- (i_perm _ _ I) in N.
    unfold stages in N. apply NoDup_app in N as (_ & _ & N). apply NoDup_app in N as (_ & _ & N).
    by apply NoDup_app in N as (_ & _ & N).
  - intros id k g d m ans' H. destruct (i_call _ _ I _ _ _ _ _ _ H) as [(a & Hk & Hg & Hi) Ha].
    exists a. split; [done|]. split; [done|]. split; [done|]. split; [|done].
    intros a' d' Hi' Hk'. eapply issue_unique; [apply (i_seq _ _ I)|..]; done.
Qed.

(** Once nothing is under way, every box query was called back, and every ray
    except those that touch the bounds of no entity: these are dropped by the
    worker and never called back. *)
Definition quiet (s : ast) : Prop := a_out s = [] ∧ a_broad s = [] ∧ a_in s = [].
Theorem C42_all_answered M w os s :
  (∀ k, asked k os ≤ M)%nat → a_run M (a_init w) os = Ok s →
  (∀ id w', LNone id w' ∈ a_log s → ray_missed (a_log s) id w' ∧ id ∉ calls true (a_log s))
  ∧ (quiet s → ∀ k id, id ∈ issues k (a_log s) →
       id ∈ calls k (a_log s) ∨ k = true ∧ ∃ w', LNone id w' ∈ a_log s).
Proof.
  intros Hc E. destruct (inv_run M (a_init w) os (inv_init M w)) as (s' & E' & I & _); [done|].
  rewrite E in E'. injection E' as <-. split.
  - intros id w' H. split; [by apply (i_none _ _ I)|].
    assert (N : NoDup (seq 0 (count true s))) by apply NoDup_seq. rewrite <- (i_perm _ _ I) in N.
    unfold stages, worker_ids in N. apply NoDup_app in N as (_ & _ & N). apply NoDup_app in N as (_ & N & _).
    intros Hcall. apply (N id).
    + apply elem_of_app. right. apply unanswered_elem. eauto.
    + apply elem_of_app. by right.
  - intros (Q1 & Q2 & Q3) k id H. rewrite (i_seq _ _ I) in H. rewrite <- (i_perm _ _ I) in H.
    unfold stages, worker_ids in H. rewrite Q1, Q2, Q3 in H. cbn in H.
    apply elem_of_app in H as [H|H]; [|by left]. right. destruct k; [|by apply elem_of_nil in H].
    split; [done|]. by apply unanswered_elem.
Qed.

(** If the two threads keep going, that point is reached from everywhere. *)
Lemma handle_all M s n : length (a_out s) = n →
  ∃ s', a_run M s (replicate n AHandle) = Ok s' ∧ a_out s' = [].
Proof.
  revert s. induction n as [|n IH]; intros s Hl; cbn [replicate a_run].
  - exists s. split; [done|]. by apply nil_length_inv.
  - cbn [a_step mbind res_bind]. apply IH. unfold a_handle.
    destruct (a_out s) as [|[id a] out]; [done|]. cbn in Hl. destruct a; cbn; lia.
Qed.
Lemma deliver_all M s n : inv M s → (∀ k, count k s ≤ M)%nat → length (a_in s) = n →
  ∃ s', a_run M s (replicate n (ADeliver [])) = Ok s' ∧ a_out s' = a_out s ∧ a_broad s' = a_broad s ∧ a_in s' = [].
Proof.
  revert s. induction n as [|n IH]; intros s I Hc Hl; cbn [replicate a_run].
  - exists s. split; [done|]. split; [done|]. split; [done|]. by apply nil_length_inv.
  - destruct (inv_deliver M s [] I) as (s1 & E & I1 & Hc1).
    { intros k. specialize (Hc k). cbn. lia. }
    cbn [a_step]. rewrite E. cbn [mbind res_bind].
    assert (length (a_in s1) = n ∧ a_out s1 = a_out s ∧ a_broad s1 = a_broad s) as (H1 & H2 & H3).
    { unfold a_deliver in E. destruct (a_in s) as [|[[id r] ans] inn]; [done|].
      destruct (a_ctx s !! (r, id)) as [[g d]|]; [|done]. cbn in E. injection E as <-. cbn. cbn in Hl.
      split; [lia|done]. }
    destruct (IH s1 I1) as (s' & E' & ? & ? & ?).
    { intros k. specialize (Hc k). specialize (Hc1 k). cbn in Hc1. lia. }
    { done. }
    exists s'. split; [done|]. by rewrite <- H2, <- H3.
Qed.
Lemma run_app M s os os' : a_run M s (os ++ os') = (s' ← a_run M s os; a_run M s' os').
Proof.
  revert s. induction os as [|o os IH]; intros s; cbn [a_run app]; [done|].
  destruct (a_step M s o); cbn; [apply IH|done..].
Qed.
Lemma asked_app k os os' : asked k (os ++ os') = (asked k os + asked k os')%nat.
Proof. unfold asked. induction os as [|o os IH]; cbn; [done|]. rewrite IH. lia. Qed.

Theorem C42_drains M w os s :
  (∀ k, asked k os ≤ M)%nat → a_run M (a_init w) os = Ok s →
  ∃ n m s', a_run M s (replicate n AHandle ++ [AUpdate] ++ replicate m (ADeliver [])) = Ok s' ∧ quiet s'.
Proof.
  intros Hc E. destruct (inv_run M (a_init w) os (inv_init M w)) as (s0 & E0 & I & Hc0); [done|].
  rewrite E in E0. injection E0 as <-.
  assert (Hcs : ∀ k, (count k s ≤ M)%nat) by (intros k; specialize (Hc0 k); specialize (Hc k); cbn in Hc0; lia).
  exists (length (a_out s)).
  destruct (handle_all M s (length (a_out s)) eq_refl) as (s1 & E1 & Ho).
  assert (Hz : ∀ k n o, asked k [o] = 0%nat → asked k (replicate n o) = 0%nat).
  { intros k n o H. induction n as [|n IH]; [done|]. unfold asked in *. cbn in *. lia. }
  destruct (inv_run M s (replicate (length (a_out s)) AHandle ++ [AUpdate]) I) as (s2 & E2 & I2 & Hc2).
  { intros k. rewrite asked_app, Hz by done. cbn. specialize (Hcs k). lia. }
  assert (Hc2' : ∀ k, (count k s2 ≤ M)%nat).
  { intros k. specialize (Hc2 k). rewrite asked_app, Hz in Hc2 by done. cbn in Hc2. specialize (Hcs k). lia. }
  assert (a_out s2 = [] ∧ a_broad s2 = []) as [H1 H2].
  { rewrite run_app, E1 in E2. cbn in E2. injection E2 as <-. cbn. done. }
  destruct (deliver_all M s2 (length (a_in s2)) I2 Hc2' eq_refl) as (s3 & E3 & Q1 & Q2 & Q3).
  exists (length (a_in s2)), s3. split; [|by rewrite H1 in Q1; rewrite H2 in Q2].
  rewrite app_assoc, run_app, E2. done.
Qed.

(** ** Cases *)
Definition wld (l : list nat) : world :=
  World (<[7%nat := 17%nat]> ∅) (λ _, l) (λ g e, if decide (e = 19%nat) then None else Some (40 - Z.of_nat e))
        (λ _, [30%nat; 30%nat]) (λ _, [17%nat]) (λ _, [21%nat]) (λ i, [17; 18]%nat) (λ _, [25%nat; 26%nat])
        (λ e, bool_decide (e = 17%nat)) (λ e, bool_decide (e = 25%nat)).
Definition see (e : event) : list (nat * nat * answer) :=
  match e with LCall id _ _ d _ ans => [(id, d, ans)] | _ => [] end.
Definition seen (r : res ast) : option (list (nat * nat * answer)) :=
  match r with Ok s => Some (flat_map see (a_log s)) | _ => None end.

(** Two rays and two box queries, the second ray ignoring the nearest entity, the
    first callback asking again. *)
Definition case_ops : list aop :=
  [AMap (<[17 := 7]> (<[18 := 8]> (<[30 := 5]> ∅)))%nat;
   AIssue (AskRay 1 []) 100; AIssue (AskRay 1 [8; 7]%nat) 101; AIssue (AskBox 2 true false true) 102;
   AIssue (AskInterest 2) 103; AHandle; AHandle; AHandle; AHandle; AUpdate;
   ADeliver []; ADeliver []; ADeliver [(AskRay 3 [], 104%nat)]; ADeliver []; AHandle; AUpdate; ADeliver []].
Example C42_case :
  seen (a_run (2 ^ 8) (a_init (wld [18; 17; 19]%nat)) case_ops)
  = Some [(0, 102, AnsBox [5; 5] [7] []); (1, 103, AnsBox [5] [7] []);
          (0, 100, AnsRay (Some 8) (Some 22%Z)); (1, 101, AnsRay (Some 8) (Some 22%Z));
          (2, 104, AnsRay (Some 8) (Some 22%Z))]%nat
  ∧ asked true case_ops = 3%nat ∧ asked false case_ops = 2%nat.
Proof. split; [|split]; vm_compute; reflexivity. Qed.

(** A ray that touches nothing is never called back and its entry stays. *)
Theorem C42_missed_ray_refuted :
  ∃ M os s, a_run M (a_init (wld [])) os = Ok s ∧ quiet s
    ∧ issues true (a_log s) = [0%nat] ∧ calls true (a_log s) = [] ∧ a_ctx s !! (true, 0%nat) = Some (1, 100)%nat.
Proof.
  exists (2 ^ 8)%nat, [AIssue (AskRay 1 []) 100; AHandle; AUpdate], 
    (match a_run (2 ^ 8) (a_init (wld [])) [AIssue (AskRay 1 []) 100; AHandle; AUpdate] with Ok s => s | _ => a_init (wld []) end).
  split; [vm_compute; reflexivity|]. split; [vm_compute; done|].
  split; [vm_compute; reflexivity|]. split; vm_compute; reflexivity.
Qed.

(** So entries pile up, and when the ids wrap around, a request takes the entry of
    one that was not called back. *)
Lemma issue_many M w n d : (0 < n ≤ M)%nat →
  ∃ s, a_run M (a_init w) (AIssue (AskRay 1 []) 100 :: replicate (n - 1) (AIssue (AskRay 1 []) d)) = Ok s
    ∧ LIssue 0 (AskRay 1 []) 100 ∈ a_log s ∧ calls true (a_log s) = [] ∧ a_next s true = (n mod M)%nat.
Proof.
  intros Hn.
  destruct (inv_run M (a_init w) (AIssue (AskRay 1 []) 100 :: replicate (n - 1) (AIssue (AskRay 1 []) d))
              (inv_init M w)) as (s & E & I & _).
  { intros k. cbn [asked sum_list_with]. unfold asked, count. cbn.
    assert (∀ m, sum_list_with (λ o, match o with
       | AIssue a _ => if decide (ask_ray a = k) then 1%nat else 0%nat
       | ADeliver cb => asked_in k cb | _ => 0%nat end) (replicate m (AIssue (AskRay 1 []) d)) ≤ m)%nat as H.
    { induction m as [|m IH]; cbn; [lia|]. destruct (decide _); lia. }
    specialize (H (n - 1)%nat). destruct (decide _); lia. }
  exists s. split; [done|].
  assert (G : ∀ m s0 s, LIssue 0 (AskRay 1 []) 100 ∈ a_log s0 → calls true (a_log s0) = [] →
    a_run M s0 (replicate m (AIssue (AskRay 1 []) d)) = Ok s →
    LIssue 0 (AskRay 1 []) 100 ∈ a_log s ∧ calls true (a_log s) = [] ∧ count true s = (count true s0 + m)%nat).
  { induction m as [|m IH]; intros s0 s' H1 H2 H3; cbn [replicate a_run] in H3.
    - injection H3 as <-. split; [done|]. split; [done|]. lia.
    - cbn [a_step mbind res_bind] in H3. apply IH in H3 as (? & ? & Hc).
      + split; [done|]. split; [done|]. rewrite Hc, count_issue. cbn [fst ask_ray]. rewrite decide_True by done. lia.
      + cbn. set_solver.
      + cbn. rewrite calls_app, H2. done. }
  cbn [a_run a_step mbind res_bind] in E. apply G in E as (H1 & H2 & H3); [|cbn; set_solver|done].
  split; [done|]. split; [done|]. rewrite (i_next _ _ I), H3, count_issue.
  change (count true (a_init w)) with 0%nat. cbn [fst ask_ray]. rewrite decide_True by done.
  f_equal. lia.
Qed.
Theorem C42_id_reuse_refuted M w :
  (0 < M)%nat →
  ∃ os s, a_run M (a_init w) os = Ok s ∧ asked true os = S M
    ∧ LIssue 0 (AskRay 1 []) 100 ∈ a_log s ∧ calls true (a_log s) = []
    ∧ a_ctx s !! (true, 0%nat) = Some (2, 200)%nat.
Proof.
  intros HM. destruct (issue_many M w M 100) as (s & E & H1 & H2 & H3); [lia|].
  rewrite Nat.mod_same in H3 by lia.
  exists ((AIssue (AskRay 1 []) 100 :: replicate (M - 1) (AIssue (AskRay 1 []) 100)) ++ [AIssue (AskRay 2 []) 200]),
    (a_issue M s (AskRay 2 [], 200%nat)).
  split; [|split; [|split; [|split]]].
  - rewrite run_app, E. done.
  - assert (H : ∀ m, asked true (replicate m (AIssue (AskRay 1 []) 100)) = m).
    { induction m as [|m IH]; [done|]. unfold asked in *. cbn [replicate sum_list_with]. rewrite IH.
      cbn [ask_ray]. by rewrite decide_True. }
    replace (AIssue (AskRay 1 []) 100 :: replicate (M - 1) (AIssue (AskRay 1 []) 100))
      with (replicate M (AIssue (AskRay 1 []) 100)) by (by destruct M; [lia|]; cbn; rewrite Nat.sub_0_r).
    rewrite asked_app, H. unfold asked. cbn [sum_list_with ask_ray]. rewrite decide_True by done. lia.
  - cbn. set_solver.
  - cbn. rewrite calls_app, H2. done.
  - cbn. rewrite H3. by rewrite lookup_insert.
Qed.

Print Assumptions C42_own_answer_once.
Print Assumptions C42_all_answered.
Print Assumptions C42_drains.
Print Assumptions C42_missed_ray_refuted.
Print Assumptions C42_id_reuse_refuted.

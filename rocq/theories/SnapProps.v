(** C31: snapshots survive the wire and apply to the right entities. *)
From Verif Require Import Outcome SnapModel SnapSpec S11nSpec S11nProofs S11nMore SnapProofs SnapMore.
Local Open Scope nat_scope.

(** A well-formed snapshot (at most 255 entries per pool, at most 65535 bytes of data per
    pool) is reproduced exactly by writing and reading it. *)
Theorem C31_round_trip klt cts s : snap_ok klt cts s →
  receive klt cts (concat (wr_snap s)) = Ok (s, Inp (length (concat (wr_snap s))) false false).
Proof. exact (receive_ok klt cts s). Qed.
Print Assumptions C31_round_trip.

(** From the sender's registry to the receiver's: exporting the pairs [reqs] of entity and
    component yields a packet from which the receiver gets back the same snapshot, and
    applying it changes exactly the exported components of the entities known to the
    receiver, each with the value of its own entity. *)
Definition sizes_ok cts (src : registry) (reqs : list (N * N)) : Prop :=
  length cts ≤ limit16 ∧ length (remove_dups (fst <$> reqs)) ≤ 256 ∧
  (∀ c, length (reqs_of c reqs) ≤ 255) ∧
  (∀ c t, cts !! N.to_nat c = Some t → pool_size src t c (reqs_of c reqs) ≤ limit16).
Definition exportable klt (cts : list ty) (net : N → bool) (src : registry) (q : N * N) : Prop :=
  net q.1 = true ∧ (q.1 < 256 ^ 4)%N ∧
  ∃ t v, cts !! N.to_nat q.2 = Some t ∧ src q.1 q.2 = Some v ∧ travels klt t v.
Theorem C31_end_to_end klt cts net (src : registry) reqs time :
  (time < 256 ^ 8)%N → NoDup reqs → Forall (exportable klt cts net src) reqs → sizes_ok cts src reqs →
  ∃ s n, collect cts net src reqs (Snap time [] []) = Ok s ∧
    receive klt cts (concat (wr_snap s)) = Ok (s, Inp n false false) ∧
    ∀ merge mapc emap valid m (r : registry), (∀ a b l, emap a = Some l → emap b = Some l → a = b) →
    ∃ r', apply_snap merge mapc emap valid m s r = Ok r' ∧
      (∀ e c l v t, (e, c) ∈ reqs → emap e = Some l → valid l = true → src e c = Some v → cts !! N.to_nat c = Some t →
         r' l c = arrived m t (λ x, merge c x (mapc c v)) (mapc c v) (r l c)) ∧
      (∀ l c, (∀ e, (e, c) ∈ reqs → emap e = Some l → valid l = false) → r' l c = r l c).
Proof.
  intros T N F (S1 & S2 & S3 & S4). rewrite Forall_forall in F.
  destruct (collect_ok cts net src reqs [] (Snap time [] [])) as (s & C1 & C2 & C3).
  { apply inv_init. }
  { apply Forall_forall. intros q Q. destruct (F q Q) as (F1 & F2 & t & v & F3 & F4 & F5). split; [done|]. by exists t, v. }
  { done. }
  cbn [app s_time] in *. exists s, (length (concat (wr_snap s))). split; [done|]. split.
  { apply receive_ok. eapply inv_snap_ok; [done|by rewrite C3|done| |done..].
    apply Forall_forall. intros q Q. destruct (F q Q) as (F1 & F2 & t & v & F3 & F4 & F5). split; [done|].
    intros t' v' E1 E2. by replace t' with t by congruence; replace v' with v by congruence. }
  intros merge mapc emap valid m r INJ. destruct C2 as (I1 & I2 & I3 & I4 & I5).
  destruct (apply_pools_ok merge mapc emap valid src m (s_ents s) reqs (s_pools s) r N INJ I3) as (r' & E & H & M).
  { intros p P. by apply I4. }
  { intros q Q. destruct (F q Q) as (F1 & F2 & t & v & F3 & F4 & F5). by exists v. }
  exists r'. split; [done|]. split.
  - intros e c l v t Q ME W SV CT. destruct (elem_of_list_fmap_2 _ _ _ (I5 _ Q)) as (p & P1 & P2). cbn in P1. subst c.
    destruct (I4 p P2) as (P3 & _). replace t with (p_ty p) by congruence. by apply (H p e v l).
  - intros l c X. apply M. right. intros e Q (_ & ME & W). rewrite (X e Q ME) in W. done.
Qed.
Print Assumptions C31_end_to_end.

(** What is read back of any pool: its data up to 65535 bytes. *)
Lemma rd_pool_cut klt (cts : list ty) p t :
  cts !! N.to_nat (p_comp p) = Some t → (p_comp p < 65536)%N →
  rd_pool klt cts (concat (wr_pool p)) (Inp 0 false false) =
    '(p', s') ← rd_data klt (p_comp p) t (take limit16 (concat (wr_data p))) (Inp 0 false false);
    Ok (p', Inp (length (concat (wr_pool p))) false (in_bad s')).
Proof.
  intros C B. unfold rd_pool, wr_pool. generalize (wr_data_bytes p). generalize (concat (wr_data p)). intros d D.
  rewrite (eq_refl : concat (le_bytes 2 (p_comp p) :: wr (TVec (TInt 1)) (VList (VInt <$> d)))
    = le_bytes 2 (p_comp p) ++ concat (wr (TVec (TInt 1)) (VList (VInt <$> d)))).
  assert (R1 := reads_int 2 (p_comp p) 0 B [] (concat (wr (TVec (TInt 1)) (VList (VInt <$> d)))) false).
  cbn [app length] in R1. rewrite R1. cbn [mbind res_bind].
  assert (R3 : reads (λ buf, rd klt buf (TVec (TInt 1)) (VList [])) (concat (wr (TVec (TInt 1)) (VList (VInt <$> d))))
     (VList (take limit16 (VInt <$> d)))).
  { apply vec_cut; [done|apply Forall_fmap|by apply Forall_fmap_all|constructor].
    eapply Forall_impl; [exact D|]. intros x Hx. cbn. constructor. by apply byte_lt. }
  specialize (R3 (le_bytes 2 (p_comp p)) [] false). rewrite app_nil_r in R3. cbn [Nat.add]. rewrite R3.
  cbn [mbind res_bind]. rewrite C. cbn [opt_res mbind res_bind list_of].
  rewrite <- fmap_take, int_of_fmap. cbn [in_bad in_pos in_failed]. by rewrite app_length.
Qed.

(** A pool with exactly 256 entries (or any multiple of it) reads back empty, and reading
    it does not fail. *)
Theorem C31_256_refuted klt (cts : list ty) p t :
  cts !! N.to_nat (p_comp p) = Some t → p_ty p = t → (N.of_nat (length (p_idx p)) mod 256 = 0)%N →
  (p_comp p < 65536)%N →
  ∃ s', rd_pool klt cts (concat (wr_pool p)) (Inp 0 false false) = Ok (Pool (p_comp p) t [] [], s') ∧ in_failed s' = false.
Proof.
  intros C T L B. rewrite (rd_pool_cut klt cts p t C B). unfold wr_data at 1. rewrite L, T. cbn [concat].
  assert (D : ∃ d, take limit16 (le_bytes 1 0 ++ concat ((le_bytes 1 <$> p_idx p) ++ (if is_empty t then [] else concat (wr t <$> p_vals p)))) = 0%N :: d).
  { assert (K : ∃ k, limit16 = S k).
    { unfold limit16. exists (N.to_nat 65534). rewrite <- N2Nat.inj_succ. done. }
    destruct K as [k ->]. cbn [le_bytes app take]. by eexists. }
  destruct D as [d ->]. unfold rd_data, rd_int, rd_bytes, load_at. cbn [in_failed in_pos length app Nat.add].
  cbn [Nat.ltb Nat.leb require_ mbind res_bind drop take le_val]. destruct (is_empty t); by eexists.
Qed.
Print Assumptions C31_256_refuted.

(** With more than 256 entities in a snapshot, values are attributed to wrong entities:
    entity 256's value of component 1 ends up in entity 0. *)
Definition c31_cts : list ty := [TInt 1; TInt 2; TEmpty].
Definition c31_src : registry := λ e c, match c with 0%N => Some (VInt 7) | 1%N => Some (VInt e) | _ => None end.
Definition c31_reqs : list (N * N) := ((λ i, (N.of_nat i, 0%N)) <$> seq 0 256) ++ [(256%N, 1%N)].
Definition c31_recv : registry := λ e c, match c with 1%N => Some (VInt 9999) | _ => None end.
Theorem C31_attribution_refuted :
  ∃ s r', NoDup c31_reqs ∧ collect c31_cts (λ _, true) c31_src c31_reqs (Snap 0 [] []) = Ok s ∧
    apply_snap (λ _ _ v, v) (λ _ v, v) Some (λ _, true) Replace s c31_recv = Ok r' ∧
    r' 0%N 1%N = Some (VInt 256) ∧ r' 256%N 1%N = Some (VInt 9999).
Proof.
  assert (X : match collect c31_cts (λ _, true) c31_src c31_reqs (Snap 0 [] []) with
    | Ok s => match apply_snap (λ _ _ v, v) (λ _ v, v) Some (λ _, true) Replace s c31_recv with
              | Ok r' => Some (r' 0%N 1%N, r' 256%N 1%N) | _ => None end
    | _ => None end = Some (Some (VInt 256), Some (VInt 9999))) by (vm_compute; reflexivity).
  destruct (collect _ _ _ _ _) as [s| | |]; try done.
  destruct (apply_snap _ _ _ _ _ _ _) as [r'| | |] eqn:A; try done. injection X as Y1 Y2.
  exists s, r'. split; [|done].
  apply (bool_decide_unpack _). vm_compute. exact I.
Qed.
Print Assumptions C31_attribution_refuted.

(** More than 65535 bytes of data in a pool are cut; the reader does not notice and leaves
    the components cut off at their default: 255 components of 257 bytes each. *)
Definition c31_big : pool := Pool 0 (TInt 257) (N.of_nat <$> seq 0 255) (replicate 255 (VInt 1)).
Theorem C31_cut_refuted klt :
  ∃ p' s', rd_pool klt [TInt 257] (concat (wr_pool c31_big)) (Inp 0 false false) = Ok (p', s') ∧
    in_failed s' = false ∧ p_idx p' = p_idx c31_big ∧
    p_vals c31_big !! 254 = Some (VInt 1) ∧ p_vals p' !! 254 = Some (VInt 0).
Proof.
  rewrite (rd_pool_cut klt [TInt 257] c31_big (TInt 257)) by done.
  assert (X : match rd_data klt (p_comp c31_big) (TInt 257) (take limit16 (concat (wr_data c31_big))) (Inp 0 false false) with
    | Ok (p', s') => bool_decide (p_idx p' = p_idx c31_big) && match p_vals p' !! 254 with Some (VInt 0) => true | _ => false end
    | _ => false end = true) by (vm_compute; reflexivity).
  revert X. generalize (length (concat (wr_pool c31_big))).
  generalize (rd_data klt (p_comp c31_big) (TInt 257) (take limit16 (concat (wr_data c31_big))) (Inp 0 false false)).
  intros [[p' s']| | |] n X; try done.
  apply andb_prop in X as [X1 X2]. apply bool_decide_eq_true in X1.
  exists p', (Inp n false (in_bad s')). split; [done|]. split; [done|]. split; [done|]. split; [done|].
  by destruct (p_vals p' !! 254) as [[[]| | | | | | | | |]|].
Qed.
Print Assumptions C31_cut_refuted.

(** Packets that were not written by the exporter: a component index beyond the known ones
    is undefined behaviour while reading, an entity index beyond the entities while
    applying, and data cut short is accepted. *)
Theorem C31_component_index_refuted klt (cts : list ty) : length cts < 256 →
  receive klt cts (le_bytes 8 0 ++ [0; 0] ++ [1; 0] ++ [255; 0] ++ [0; 0])%N = UB.
Proof.
  intros L. unfold receive. vm_compute (_ ++ _).
  assert (X : cts !! N.to_nat 255 = None) by (apply lookup_ge_None_2; lia).
  vm_compute in X. vm_compute. by rewrite X.
Qed.
Print Assumptions C31_component_index_refuted.
Theorem C31_entity_index_refuted klt :
  ∃ s s', receive klt [TInt 1] (le_bytes 8 0 ++ [0; 0] ++ [1; 0] ++ [0; 0] ++ [3; 0; 1; 5; 9])%N = Ok (s, s') ∧ in_failed s' = false ∧
    ∀ merge mapc emap valid r, apply_snap merge mapc emap valid Replace s r = UB.
Proof. eexists _, _. split; [vm_compute; reflexivity|]. split; [done|]. intros. done. Qed.
Print Assumptions C31_entity_index_refuted.
Theorem C31_short_data_refuted klt :
  ∃ s s', receive klt [TInt 1] (le_bytes 8 0 ++ [1; 0; 4; 0; 0; 0] ++ [1; 0] ++ [0; 0] ++ [1; 0; 1])%N = Ok (s, s') ∧ in_failed s' = false ∧
    ∀ merge mapc, ∃ r', apply_snap merge mapc Some (λ _, true) Replace s (λ _ _, Some (VInt 77)) = Ok r' ∧
      r' 4%N 0%N = Some (merge 0%N (VInt 77) (mapc 0%N (VInt 0))).
Proof. eexists _, _. split; [vm_compute; reflexivity|]. split; [done|]. intros. eexists. split; [reflexivity|]. done. Qed.
Print Assumptions C31_short_data_refuted.

(** A case: two entities with three components each way, one of them empty. *)
Definition c31_case_src : registry := λ e c,
  match c with 0%N => Some (VInt (e + 1)) | 1%N => Some (VInt (e + 1000)) | 2%N => Some VUnit | _ => None end.
Definition c31_case_reqs : list (N * N) := [(10, 0); (11, 1); (11, 0); (10, 2)]%N.
Example C31_case :
  NoDup c31_case_reqs ∧ Forall (exportable (λ _ _, false) c31_cts (λ _, true) c31_case_src) c31_case_reqs ∧
  sizes_ok c31_cts c31_case_src c31_case_reqs ∧
  collect c31_cts (λ _, true) c31_case_src c31_case_reqs (Snap 5 [] []) =
    Ok (Snap 5 [10; 11]%N [Pool 0 (TInt 1) [0; 1]%N [VInt 11; VInt 12]; Pool 1 (TInt 2) [1%N] [VInt 1011]; Pool 2 TEmpty [0%N] []]).
Proof.
  assert (SM : ∀ n, n ≤ 100 → n ≤ limit16) by (unfold limit16; lia).
  split_and!; [apply (bool_decide_unpack _); vm_compute; exact I| | |reflexivity].
  - repeat (apply Forall_cons_2; [|]); try apply Forall_nil_2; (split; [done|]; split; [done|]).
    all: cbn [fst snd]; eexists _, _; split_and!; [reflexivity|reflexivity|]; split_and!; try done; try (constructor; done); constructor.
  - unfold sizes_ok. split_and!.
    + apply SM. cbn. lia.
    + vm_compute. lia.
    + intros c. unfold reqs_of. rewrite fmap_length. etrans; [apply filter_length|]. cbn. lia.
    + intros c t T. apply SM. unfold pool_size, reqs_of, c31_case_reqs.
      destruct (decide (c = 0)%N) as [->|]; [injection T as <-; vm_compute; lia|].
      destruct (decide (c = 1)%N) as [->|]; [injection T as <-; vm_compute; lia|].
      destruct (decide (c = 2)%N) as [->|]; [injection T as <-; vm_compute; lia|].
      repeat rewrite filter_cons_False by (cbn; congruence). rewrite filter_nil. cbn. destruct (is_empty t); cbn; lia.
Qed.

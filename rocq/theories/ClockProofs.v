(** Proofs about the clock synchronisation (ClockModel.v). *)
From Verif Require Import Outcome ClockModel ClockSpec.
Local Open Scope nat_scope.

Section proofs.
Context {D : Type} (o : num D).
Notation trace_ok := (trace_ok o).

Lemma snoc_cases {A} (l : list A) x i y :
  (l ++ [x]) !! i = Some y → l !! i = Some y ∨ (i = length l ∧ y = x).
Proof.
  intros H. destruct (decide (i < length l)).
  - left. by rewrite lookup_app_l in H.
  - right. rewrite lookup_app_r in H by lia. destruct (i - length l) eqn:E; [|done]. cbn in H.
    split; [lia|congruence].
Qed.
Lemma trace_ok_nil : trace_ok [].
Proof. split_and!; intros; done. Qed.
Lemma trace_ok_sent tr id t : trace_ok tr → trace_ok (tr ++ [Sent id t]).
Proof.
  intros (A & B & C). split_and!.
  - intros i id' ts t' H. apply snoc_cases in H as [H|[_ H]]; [|done]. destruct (A _ _ _ _ H) as [t0 H0].
    exists t0. by apply lookup_app_l_Some.
  - intros id' ts t' H. apply snoc_cases in H as [H|[_ H]]; [|done]. by eapply B.
  - intros i d H. apply snoc_cases in H as [H|[_ H]]; [|done].
    destruct (C _ _ H) as (j & id0 & t0 & ts0 & t1 & id1 & ts1 & t2 & ? & ? & ? & ? & ? & ? & ?).
    exists j, id0, t0, ts0, t1, id1, ts1, t2. split_and!; try done; by apply lookup_app_l_Some.
Qed.
Lemma trace_ok_recv tr id t0 ts t :
  trace_ok (tr ++ [Sent id t0]) → trace_ok (tr ++ [Sent id t0; Recv id ts t]).
Proof.
  intros (A & B & C). replace (tr ++ [Sent id t0; Recv id ts t]) with ((tr ++ [Sent id t0]) ++ [Recv id ts t])
    by (by rewrite <- app_assoc). split_and!.
  - intros i id' ts' t' H. apply snoc_cases in H as [H|[Hi H]].
    + destruct (A _ _ _ _ H) as [t1 H0]. exists t1. by apply lookup_app_l_Some.
    + injection H as -> -> ->. exists t0. rewrite app_length in Hi. cbn in Hi. assert (i = length tr) as -> by lia.
      rewrite <- app_assoc. by rewrite lookup_app_r, Nat.sub_diag.
  - intros id' ts' t' H. apply snoc_cases in H as [H|[Hi H]]; [by eapply B|].
    rewrite app_length in Hi. cbn in Hi. lia.
  - intros i d H. apply snoc_cases in H as [H|[_ H]]; [|done].
    destruct (C _ _ H) as (j & id0 & t0' & ts0 & t1 & id1 & ts1 & t2 & ? & ? & ? & ? & ? & ? & ?).
    exists j, id0, t0', ts0, t1, id1, ts1, t2. split_and!; try done; by apply lookup_app_l_Some.
Qed.
Lemma trace_ok_sample pre id0 t0 ts0 t1 id1 ts1 t2 :
  consistent o (n_sub o t1 t0) (n_sub o t2 t1) (n_sub o ts1 ts0) →
  let tr := pre ++ [Sent id0 t0; Recv id0 ts0 t1; Sent id1 t1; Recv id1 ts1 t2] in
  trace_ok tr → trace_ok (tr ++ [Sample (offset_of o t1 ts1 t2)]).
Proof.
  intros K tr (A & B & C). split_and!.
  - intros i id' ts t' H. apply snoc_cases in H as [H|[_ H]]; [|done]. destruct (A _ _ _ _ H) as [t0' H0].
    exists t0'. by apply lookup_app_l_Some.
  - intros id' ts t' H. apply snoc_cases in H as [H|[_ H]]; [|done]. by eapply B.
  - intros i d H. apply snoc_cases in H as [H|[Hi H]].
    + destruct (C _ _ H) as (j & id0' & t0' & ts0' & t1' & id1' & ts1' & t2' & ? & ? & ? & ? & ? & ? & ?).
      exists j, id0', t0', ts0', t1', id1', ts1', t2'. split_and!; try done; by apply lookup_app_l_Some.
    + injection H as ->. exists (length pre), id0, t0, ts0, t1, id1, ts1, t2.
      unfold tr in *. rewrite app_length in Hi. cbn in Hi.
      split_and!; try done; apply lookup_app_l_Some;
        rewrite lookup_app_r by lia; first [rewrite Nat.sub_diag|rewrite Nat.add_comm, Nat.add_sub]; done.
Qed.

Lemma samples_app tr tr' : samples_of (D := D) (tr ++ tr') = samples_of tr ++ samples_of tr'.
Proof. unfold samples_of. apply omap_app. Qed.

Lemma samples_sent tr id t : samples_of (D := D) (tr ++ [Sent id t]) = samples_of tr.
Proof. rewrite samples_app. apply app_nil_r. Qed.
Lemma samples_recv tr id ts t : samples_of (D := D) (tr ++ [Recv id ts t]) = samples_of tr.
Proof. rewrite samples_app. apply app_nil_r. Qed.
Lemma samples_recv_sent tr id ts t id' t' : samples_of (D := D) (tr ++ [Recv id ts t; Sent id' t']) = samples_of tr.
Proof. rewrite samples_app. apply app_nil_r. Qed.
Ltac flds := cbn [cs_samples cs_trace cs_num cs_count cs_delta cs_phase_ cs_req_time cs_req_id cs_rtt0 cs_remote0 cs_delay cs_period cs_start].

Lemma cs_sum_ok acc l : cs_sum o acc (Some <$> l) = Ok (foldl (n_add o) acc l).
Proof. revert acc. induction l as [|x l IH]; intros acc; [done|]. cbn. apply IH. Qed.

(** Five at a time *)
Lemma five n q r : n = 5 * q + r → r < 5 → n / 5 = q ∧ n mod 5 = r.
Proof.
  intros -> H. split.
  - rewrite Nat.mul_comm, Nat.div_add_l by lia. rewrite (Nat.div_small r) by lia. lia.
  - rewrite Nat.add_comm, Nat.mul_comm, Nat.mod_add by lia. by apply Nat.mod_small.
Qed.
Lemma offset_first l : 0 < length l < 5 → offset_after o l = mean o l.
Proof. intros H. unfold offset_after. destruct l; [cbn in *; lia|]. by rewrite (proj2 (Nat.ltb_lt _ _)) by lia. Qed.
Lemma offset_round l q : length l = 5 * S q → offset_after o l = mean o (drop (5 * q) l).
Proof.
  intros H. unfold offset_after. destruct l as [|x l]; [cbn in H; lia|].
  rewrite (proj2 (Nat.ltb_ge _ _)) by lia. rewrite H.
  destruct (five (5 * S q) (S q) 0) as [-> _]; [lia..|]. replace (S q - 1) with q by lia.
  rewrite take_ge; [done|]. rewrite drop_length, H. lia.
Qed.
Lemma offset_keeps l d q r : length l = 5 * S q + r → r < 4 → offset_after o (l ++ [d]) = offset_after o l.
Proof.
  intros H Hr. unfold offset_after. rewrite app_length. cbn [length].
  destruct l as [|x l]; [cbn in H; lia|]. cbn [app].
  rewrite !(proj2 (Nat.ltb_ge _ _)) by lia. rewrite H.
  destruct (five (5 * S q + r + 1) (S q) (r + 1)) as [-> _]; [lia..|].
  destruct (five (5 * S q + r) (S q) r) as [-> _]; [lia..|].
  change (x :: l ++ [d]) with ((x :: l) ++ [d]). rewrite drop_app_le by lia.
  rewrite take_app_le; [done|]. rewrite drop_length, H. lia.
Qed.

(** ** The invariant *)
Record inv (c : cs D) : Prop := {
  i_len : length (cs_samples c) = 5;
  i_trace : trace_ok (cs_trace c);
  i_num : cs_num c < 5;
  i_count : length (samples_of (cs_trace c)) = 5 * cs_count c + cs_num c;
  i_part : take (cs_num c) (cs_samples c) = Some <$> drop (5 * cs_count c) (samples_of (cs_trace c));
  i_delta : cs_delta c = offset_after o (samples_of (cs_trace c));
  i_phase : match cs_phase_ c with
            | CsNone => (∀ id t, last (cs_trace c) ≠ Some (Sent id t)) ∧ (cs_count c = 0 ∨ is_Some (cs_req_time c))
            | CsReq0 => ∃ pre id t, cs_trace c = pre ++ [Sent id t] ∧ cs_req_time c = Some t ∧ cs_req_id c = Some id
            | CsReq1 => ∃ pre id0 t0 ts0 t1 id1,
                cs_trace c = pre ++ [Sent id0 t0; Recv id0 ts0 t1; Sent id1 t1] ∧ cs_req_time c = Some t1 ∧
                cs_req_id c = Some id1 ∧ cs_rtt0 c = Some (n_sub o t1 t0) ∧ cs_remote0 c = Some ts0
            | CsWait => (∀ id t, last (cs_trace c) ≠ Some (Sent id t)) ∧ is_Some (cs_req_time c)
            end }.

Lemma inv_init delay period : inv (cs_init o delay period).
Proof. split; cbn; try done; [lia|]. split; [done|by left]. Qed.
Lemma inv_start c time r : inv c → inv (cs_start c time r).
Proof.
  intros [A B C E F G _]. split; flds; rewrite ?samples_sent; try done.
  - by apply trace_ok_sent.
  - by eexists _, _, _.
Qed.
Lemma inv_update c time rtt r : inv c → ∃ c', cs_update o c time rtt r = Ok c' ∧ inv c'.
Proof.
  intros I. pose proof (i_phase c I) as P. unfold cs_update. destruct (cs_phase_ c) eqn:Ep.
  - destruct (Nat.eqb_spec (cs_count c) 0) as [E|E]; [eauto using inv_start|].
    destruct P as [_ [P|[t P]]]; [done|]. rewrite P. cbn. destruct (n_gt _ _ _); eauto using inv_start.
  - destruct P as (pre & id & t & _ & P & _). rewrite P. cbn. destruct (n_gt _ _ _); eauto using inv_start.
  - destruct P as (pre & id0 & t0 & ts0 & t1 & id1 & _ & P & _). rewrite P. cbn. destruct (n_gt _ _ _); eauto using inv_start.
  - destruct P as [_ [t P]]. rewrite P. cbn. destruct (n_gt _ _ _); eauto using inv_start.
Qed.
Lemma inv_first c id ts time r pre t :
  inv c → cs_trace c = pre ++ [Sent id t] → cs_req_time c = Some t →
  ∃ c', cs_first o c id ts time r = Ok c' ∧ inv c'.
Proof.
  intros [A B C E F G _] Ht Hr. unfold cs_first. rewrite Hr. cbn. eexists. split; [done|].
  split; flds; rewrite ?samples_recv_sent; try done.
  - rewrite Ht in *. replace ((pre ++ [Sent id t]) ++ [Recv id ts time; Sent r time])
      with ((pre ++ [Sent id t; Recv id ts time]) ++ [Sent r time]) by (by rewrite <- !app_assoc).
    by apply trace_ok_sent, trace_ok_recv.
  - exists pre, id, t, ts, time, r. rewrite Ht, <- app_assoc. done.
Qed.
Lemma part_insert (l : list (option D)) n d : n < length l → take (S n) (<[n := Some d]> l) = take n l ++ [Some d].
Proof.
  intros H. rewrite (take_S_r _ _ (Some d)) by (by apply list_lookup_insert). by rewrite take_insert by lia.
Qed.
Lemma inv_second c id ts time r pre id0 t0 ts0 t1 :
  inv c → cs_trace c = pre ++ [Sent id0 t0; Recv id0 ts0 t1; Sent id t1] → cs_req_time c = Some t1 →
  cs_rtt0 c = Some (n_sub o t1 t0) → cs_remote0 c = Some ts0 →
  ∃ c', cs_second o c id ts time r = Ok c' ∧ inv c'.
Proof.
  intros I Ht Hr Hr0 Hs0. pose proof I as [A B C E F G _]. unfold cs_second. rewrite Hr, Hr0, Hs0. cbn [opt_res mbind res_bind].
  assert (B' : trace_ok (cs_trace c ++ [Recv id ts time])).
  { rewrite Ht in *. replace (pre ++ [Sent id0 t0; Recv id0 ts0 t1; Sent id t1])
      with ((pre ++ [Sent id0 t0; Recv id0 ts0 t1]) ++ [Sent id t1]) in * by (by rewrite <- !app_assoc).
    rewrite <- app_assoc. by apply trace_ok_recv. }
  set (c1 := Cs (cs_phase_ c) _ _ _ _ _ _ _ _ _ _ _).
  destruct (_ || _) eqn:Ek.
  - eexists. split; [done|]. split; unfold c1; flds; rewrite ?samples_sent, ?samples_recv; try done.
    + by apply trace_ok_sent.
    + by eexists _, _, _.
  - apply orb_false_iff in Ek. cbn [cs_num cs_samples cs_trace cs_count cs_req_id cs_rtt0 cs_remote0 cs_delay cs_delta cs_period c1].
    rewrite (proj2 (Nat.ltb_lt (cs_num c) max_samples)) by (unfold max_samples; lia). cbn [require_ mbind res_bind].
    change (n_sub o time (n_add o ts (n_div o (n_sub o time t1) (n_nat o 2)))) with (offset_of o t1 ts time).
    set (d := offset_of o t1 ts time).
    assert (B2 : trace_ok ((cs_trace c ++ [Recv id ts time]) ++ [Sample d])).
    { rewrite Ht in *. rewrite <- (app_assoc pre) in B' |- *. apply (trace_ok_sample pre id0 t0 ts0 t1 id ts time); done. }
    assert (Hsm : samples_of ((cs_trace c ++ [Recv id ts time]) ++ [Sample d]) = samples_of (cs_trace c) ++ [d]).
    { rewrite !samples_app. cbn. by rewrite app_nil_r. }
    assert (Hpart : take (S (cs_num c)) (<[cs_num c := Some d]> (cs_samples c)) =
                    Some <$> (drop (5 * cs_count c) (samples_of (cs_trace c) ++ [d]))).
    { rewrite part_insert by lia. rewrite F, drop_app_le by lia. by rewrite fmap_app. }
    destruct (Nat.eqb_spec (S (cs_num c)) max_samples) as [En|En].
    + unfold max_samples in En. rewrite En in Hpart. rewrite take_ge in Hpart by (rewrite insert_length; lia).
      rewrite Hpart, cs_sum_ok. cbn [mbind res_bind]. eexists. split; [done|].
      split; cbn [cs_samples cs_trace cs_num cs_count cs_delta cs_phase_ cs_req_time]; rewrite ?Hsm.
      * rewrite <- Hpart. by rewrite insert_length.
      * done.
      * lia.
      * rewrite app_length, E. cbn. lia.
      * rewrite take_0, drop_ge; [done|]. rewrite app_length, E. cbn. lia.
      * rewrite (offset_round _ (cs_count c)); [|rewrite app_length, E; cbn; lia].
        unfold mean. f_equal. rewrite drop_length, app_length, E. cbn. f_equal. unfold max_samples. lia.
      * split; [|by right]. intros. by rewrite last_snoc.
    + unfold max_samples in En. destruct (Nat.eqb_spec (cs_count c) 0) as [E0|E0].
      * rewrite Hpart, cs_sum_ok. cbn [mbind res_bind]. eexists. split; [done|].
        split; cbn [cs_samples cs_trace cs_num cs_count cs_delta cs_phase_ cs_req_time]; rewrite ?Hsm.
        -- by rewrite insert_length.
        -- done.
        -- lia.
        -- rewrite app_length, E. cbn. lia.
        -- done.
        -- rewrite E0, Nat.mul_0_r. rewrite drop_0. rewrite offset_first by (rewrite app_length, E, E0; cbn; lia).
           unfold mean. rewrite app_length, E, E0. cbn [length]. do 2 f_equal. lia.
        -- split; [|done]. intros. by rewrite last_snoc.
      * eexists. split; [done|].
        split; cbn [cs_samples cs_trace cs_num cs_count cs_delta cs_phase_ cs_req_time]; rewrite ?Hsm.
        -- by rewrite insert_length.
        -- done.
        -- lia.
        -- rewrite app_length, E. cbn. lia.
        -- done.
        -- rewrite G. symmetry. apply (offset_keeps _ _ (cs_count c - 1) (cs_num c)); lia.
        -- split; [|done]. intros. by rewrite last_snoc.
Qed.
Lemma inv_response c id ts time r : inv c → ∃ c', cs_response o c id ts time r = Ok c' ∧ inv c'.
Proof.
  intros I. pose proof (i_phase c I) as P. unfold cs_response. destruct (cs_phase_ c) eqn:Ep; [eauto| | |eauto].
  - destruct P as (pre & id' & t & Ht & Hr & Hi). rewrite Hi. cbn. destruct (Nat.eqb_spec id id') as [->|N]; cbn; [|eauto].
    by eapply inv_first.
  - destruct P as (pre & id0 & t0 & ts0 & t1 & id1 & Ht & Hr & Hi & H0 & H1). rewrite Hi. cbn.
    destruct (Nat.eqb_spec id id1) as [->|N]; cbn; [|eauto]. by eapply inv_second.
Qed.
Lemma inv_run l c : inv c → ∃ c', cs_run o c l = Ok c' ∧ inv c'.
Proof.
  revert c. induction l as [|e l IH]; intros c I; [eauto|]. cbn [cs_run].
  assert (∃ c1, cs_step o c e = Ok c1 ∧ inv c1) as (c1 & E & I1).
  { destruct e; [by apply inv_update|by apply inv_response]. }
  rewrite E. cbn. by apply IH.
Qed.
(** ** Which responses count *)
Lemma response_ignored c id ts time r : inv c → (∀ t, last (cs_trace c) ≠ Some (Sent id t)) → cs_response o c id ts time r = Ok c.
Proof.
  intros I N. pose proof (i_phase c I) as P. unfold cs_response. destruct (cs_phase_ c) eqn:Ep; try done.
  - destruct P as (pre & id' & t & Ht & Hr & Hi). rewrite Hi. cbn. destruct (Nat.eqb_spec id id') as [->|X]; cbn; [|done].
    exfalso. apply (N t). by rewrite Ht, last_snoc.
  - destruct P as (pre & id0 & t0 & ts0 & t1 & id1 & Ht & Hr & Hi & H0 & H1). rewrite Hi. cbn.
    destruct (Nat.eqb_spec id id1) as [->|X]; cbn; [|done].
    exfalso. apply (N t1). rewrite Ht.
    replace [Sent id0 t0; Recv id0 ts0 t1; Sent id1 t1] with ([Sent id0 t0; Recv id0 ts0 t1] ++ [Sent id1 t1]) by done.
    by rewrite app_assoc, last_snoc.
Qed.
Lemma response_counts c id t ts time r : inv c → last (cs_trace c) = Some (Sent id t) →
  ∃ c' rest, cs_response o c id ts time r = Ok c' ∧ cs_trace c' = cs_trace c ++ Recv id ts time :: rest.
Proof.
  intros I L. pose proof (i_phase c I) as P. unfold cs_response. destruct (cs_phase_ c) eqn:Ep.
  - exfalso. by eapply P.
  - destruct P as (pre & id' & t' & Ht & Hr & Hi). rewrite Hi. cbn. rewrite Ht, last_snoc in L. injection L as -> ->.
    rewrite Nat.eqb_refl. cbn. unfold cs_first. rewrite Hr. cbn. by eexists _, _.
  - destruct P as (pre & id0 & t0 & ts0 & t1 & id1 & Ht & Hr & Hi & H0 & H1). rewrite Hi. cbn.
    rewrite Ht in L.
    replace [Sent id0 t0; Recv id0 ts0 t1; Sent id1 t1] with ([Sent id0 t0; Recv id0 ts0 t1] ++ [Sent id1 t1]) in L by done.
    rewrite app_assoc, last_snoc in L. injection L as -> ->. rewrite Nat.eqb_refl. cbn [negb].
    destruct (inv_second c id ts time r pre id0 t0 ts0 t I Ht Hr H0 H1) as (c' & E & _). exists c'.
    unfold cs_second in E |- *. rewrite Hr, H0, H1 in *. cbn [opt_res mbind res_bind] in E |- *.
    destruct (_ || _).
    + injection E as <-. eexists. split; [done|]. cbn. by rewrite <- app_assoc.
    + cbn [cs_num cs_count cs_samples cs_trace] in *. destruct (cs_num c <? max_samples); [|done]. cbn [require_ mbind res_bind] in *.
      destruct (S (cs_num c) =? max_samples).
      * destruct (cs_sum _ _ _); try done. cbn [mbind res_bind] in *. injection E as <-. eexists. split; [done|]. cbn. by rewrite <- app_assoc.
      * destruct (cs_count c =? 0).
        -- destruct (cs_sum _ _ _); try done. cbn [mbind res_bind] in *. injection E as <-. eexists. split; [done|]. cbn. by rewrite <- app_assoc.
        -- injection E as <-. eexists. split; [done|]. cbn. by rewrite <- app_assoc.
  - exfalso. by eapply P.
Qed.
End proofs.

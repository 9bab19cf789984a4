(** The destination mirrors the source after every history (RegModel.v). *)
From Verif Require Import Outcome MapModel MapProofs RegModel RegSpec RegProofs.

Section mirror.
Variable merge : nat → list mem → list mem → list mem.
Variable empty_ty : nat → bool.
Variable shared : list nat.
Variable d0 : reg.
Variable m0 : emap.
Hypothesis W0 : dwf d0 m0.
Local Notation exec := (exec_ops merge empty_ty).
Local Notation op1 := (op_exec merge empty_ty).

(** Types whose replacement is an assignment. *)
Definition plain (t : nat) : Prop := empty_ty t = true ∨ ∀ c n, merge t c n = n.
Definition cmatch (t : nat) (f : gmap nat nat) (o o' : option (list mem)) : Prop :=
  match o, o' with
  | Some v, Some w => plain t → val_match f v w
  | None, None => True
  | _, _ => False
  end.

Record rinv (s : sstate) (d : reg) (m : emap) : Prop := {
  ri_wf : dwf d m;
  ri_keys : ∀ e l, em_map m !! e = Some l → e ∈ ss_seen s;
  ri_obs : ∀ e, e ∈ ss_obs s → e ∈ ss_seen s;
  ri_ent : ∀ e, e ∈ ss_obs s → ∃ l, em_map m !! e = Some l ∧ l ∈ rg_alive d ∧ rg_next d0 ≤ l ∧
             ∀ t, t ∈ shared → cmatch t (em_map m) (ss_comp s t e) (rg_comp d !! (t, l));
  ri_refs : ∀ e t v, e ∈ ss_obs s → t ∈ shared → ss_comp s t e = Some v → val_ok (λ r, r ∈ ss_seen s) v;
  ri_init : ∀ e l, em_map m0 !! e = Some l → em_map m !! e = Some l ∧ e ∉ ss_obs s;
  ri_next : rg_next d0 ≤ rg_next d;
  ri_frame : ∀ l, l ∈ rg_alive d0 → l ∈ rg_alive d ∧ ∀ t, rg_comp d !! (t, l) = rg_comp d0 !! (t, l);
  ri_alive : ∀ l, l ∈ rg_alive d → l ∈ rg_alive d0 ∨ ∃ e, e ∈ ss_obs s ∧ em_map m !! e = Some l;
  ri_types : ∀ t l v, rg_comp d !! (t, l) = Some v → l ∈ rg_alive d0 ∨ t ∈ shared
}.

Lemma rinv_ext s s' d m :
  rinv s d m → (∀ e, e ∈ ss_obs s' ↔ e ∈ ss_obs s) → (∀ e, e ∈ ss_seen s → e ∈ ss_seen s') →
  (∀ t e, t ∈ shared → e ∈ ss_obs s → ss_comp s' t e = ss_comp s t e) → rinv s' d m.
Proof.
  intros I Ho Hs Hc. constructor.
  - apply I.
  - intros e l H. eapply Hs, ri_keys; done.
  - intros e H%Ho. eapply Hs, ri_obs; done.
  - intros e H%Ho. destruct (ri_ent _ _ _ I e H) as (l & ? & ? & ? & M). exists l. split_and!; [done..|].
    intros t Ht. rewrite Hc by done. by apply M.
  - intros e t v H%Ho Ht Hv. rewrite Hc in Hv by done. eapply val_ok_mono; [exact Hs|]. by eapply ri_refs.
  - intros e l H. rewrite Ho. by eapply ri_init.
  - apply I.
  - apply I.
  - intros l H. destruct (ri_alive _ _ _ I l H) as [?|(e & ? & ?)]; [by left|right]. exists e. by rewrite Ho.
  - apply I.
Qed.

Lemma obs_refd s d m r : rinv s d m → r ∈ ss_obs s → refd d m r.
Proof. intros I H. destruct (ri_ent _ _ _ I r H) as (l & ? & ? & _). by exists l. Qed.

(** Writing one replicated component on both sides. *)
Lemma rinv_write s d m e l t o d' :
  rinv s d m → e ∈ ss_obs s → em_map m !! e = Some l → t ∈ shared →
  rg_alive d' = rg_alive d → rg_next d' = rg_next d →
  (∀ t' l', (t', l') ≠ (t, l) → rg_comp d' !! (t', l') = rg_comp d !! (t', l')) →
  cmatch t (em_map m) o (rg_comp d' !! (t, l)) →
  (∀ v, o = Some v → val_ok (λ r, r ∈ ss_seen s) v) →
  rinv (SState (ss_alive s) (ss_next s) (upd (ss_comp s) t e o) (ss_obs s) (ss_seen s)) d' m.
Proof.
  intros I He Hl Ht Ea En Ec M R. pose proof (ri_wf _ _ _ I) as W.
  destruct (ri_ent _ _ _ I e He) as (l0 & Hl0 & Hal & Hge & M0). assert (l0 = l) as -> by congruence.
  assert (Hn0 : l ∉ rg_alive d0) by (intros H; apply (dw_issued _ _ W0) in H; lia).
  constructor; cbn.
  - constructor.
    + apply W.
    + rewrite Ea, En. apply W.
    + rewrite En. apply W.
    + intros t' l' v H. rewrite Ea. destruct (decide ((t', l') = (t, l))) as [[= -> ->]|Hne]; [done|].
      rewrite Ec in H by done. by eapply dw_comp.
  - apply I.
  - apply I.
  - intros e' He'. destruct (ri_ent _ _ _ I e' He') as (l' & Hl' & Hal' & Hge' & M'). exists l'.
    rewrite Ea. split_and!; [done..|]. intros t' Ht'. unfold upd.
    destruct (decide (t' = t ∧ e' = e)) as [[-> ->]|Hne].
    + assert (l' = l) as -> by congruence. done.
    + rewrite Ec; [by apply M'|]. intros [= -> ->]. apply Hne. split; [done|].
      apply (dw_bij _ _ W) in Hl'. apply (dw_bij _ _ W) in Hl. congruence.
  - intros e' t' v He' Ht'. unfold upd. destruct (decide (t' = t ∧ e' = e)) as [[-> ->]|Hne]; [by apply R|].
    by eapply ri_refs.
  - apply I.
  - rewrite En. apply I.
  - intros l' H'. destruct (ri_frame _ _ _ I l' H') as [Ha F]. rewrite Ea. split; [done|].
    intros t'. rewrite Ec; [done|]. intros [= -> ->]. done.
  - intros l'. rewrite Ea. apply I.
  - intros t' l' v H. destruct (decide ((t', l') = (t, l))) as [[= -> ->]|Hne]; [by right|].
    rewrite Ec in H by done. by eapply ri_types.
Qed.

(** ** The four component operations on a replicated entity *)
Lemma op_emplace d m e l t v :
  em_map m !! e = Some l → l ∈ rg_alive d → rg_comp d !! (t, l) = None →
  op1 (d, m) (OEmplace t e v) = Ok (rg_put d t l (if empty_ty t then [] else map_child d m v), m).
Proof.
  intros El Ha Hn. cbn [op_exec]. rewrite (proj2 (em_contains_true m e)) by (by eexists).
  unfold em_at. rewrite El. cbn [mbind res_bind opt_res]. rewrite (proj2 (rg_valid_true d l) Ha).
  rewrite (proj2 (rg_has_false d t l) Hn). cbn [negb orb]. unfold rg_emplace.
  rewrite (proj2 (rg_valid_true d l) Ha), (proj2 (rg_has_false d t l) Hn). done.
Qed.
Lemma op_emplace_present d m e l t v :
  em_map m !! e = Some l → is_Some (rg_comp d !! (t, l)) → op1 (d, m) (OEmplace t e v) = Ok (d, m).
Proof.
  intros El Hn. cbn [op_exec]. rewrite (proj2 (em_contains_true m e)) by (by eexists).
  unfold em_at. rewrite El. cbn [mbind res_bind opt_res].
  rewrite (proj2 (rg_has_true d t l) Hn). by rewrite orb_true_r.
Qed.
Lemma op_replace d m e l t v c :
  em_map m !! e = Some l → l ∈ rg_alive d → rg_comp d !! (t, l) = Some c →
  op1 (d, m) (OReplace t e v) =
    Ok (if empty_ty t then d else rg_put d t l (merge t c (map_child d m v)), m).
Proof.
  intros El Ha Hn. cbn [op_exec]. destruct (empty_ty t); [done|].
  rewrite (proj2 (em_contains_true m e)) by (by eexists).
  unfold em_at. rewrite El. cbn [mbind res_bind opt_res]. rewrite (proj2 (rg_valid_true d l) Ha).
  rewrite (proj2 (rg_has_true d t l)) by (by eexists). cbn [negb orb]. unfold rg_patch. by rewrite Hn.
Qed.
Lemma op_remove d m e l t :
  em_map m !! e = Some l → l ∈ rg_alive d → op1 (d, m) (ORemove t e) = Ok (rg_del d t l, m).
Proof.
  intros El Ha. cbn [op_exec]. rewrite (proj2 (em_contains_true m e)) by (by eexists).
  unfold em_at. rewrite El. cbn [mbind res_bind opt_res]. by rewrite (proj2 (rg_valid_true d l) Ha).
Qed.

Lemma put_other d t l w t' l' : (t', l') ≠ (t, l) → rg_comp (rg_put d t l w) !! (t', l') = rg_comp d !! (t', l').
Proof. intros H. cbn. by rewrite lookup_insert_ne. Qed.
Lemma del_other d t l t' l' : (t', l') ≠ (t, l) → rg_comp (rg_del d t l) !! (t', l') = rg_comp d !! (t', l').
Proof. intros H. cbn. by rewrite lookup_delete_ne. Qed.

(** Source states that differ from [s] in the components only. *)
Definition with_comp (s : sstate) (c : nat → nat → option (list mem)) : sstate :=
  SState (ss_alive s) (ss_next s) c (ss_obs s) (ss_seen s).

Lemma step_emplace s d m t e v :
  rinv s d m → e ∈ ss_obs s → t ∈ shared → ss_comp s t e = None →
  (empty_ty t = true → v = []) → val_ok (λ r, r ∈ ss_obs s) v →
  ∃ d', op1 (d, m) (OEmplace t e v) = Ok (d', m) ∧ rinv (with_comp s (upd (ss_comp s) t e (Some v))) d' m.
Proof.
  intros I He Ht Hn Hemp Hv. destruct (ri_ent _ _ _ I e He) as (l & Hl & Ha & Hge & M).
  pose proof (M t Ht) as Mt. rewrite Hn in Mt. destruct (rg_comp d !! (t, l)) as [w|] eqn:Ew; [done|].
  eexists. split; [by apply op_emplace|]. eapply rinv_write; [done|exact He|exact Hl|done|done|done|apply put_other| |].
  - cbn. rewrite lookup_insert. intros _. destruct (empty_ty t) eqn:Et.
    + rewrite Hemp by done. constructor.
    + apply val_child. eapply val_ok_mono; [|exact Hv]. intros r Hr. by eapply obs_refd.
  - intros v' [= <-]. eapply val_ok_mono; [|exact Hv]. intros r Hr. by eapply ri_obs.
Qed.
Lemma step_replace s d m t e v :
  rinv s d m → e ∈ ss_obs s → t ∈ shared → is_Some (ss_comp s t e) →
  (∀ v', ss_comp s t e = Some v' → empty_ty t = true → v' = []) →
  (empty_ty t = true → v = []) → val_ok (λ r, r ∈ ss_obs s) v →
  ∃ d', op1 (d, m) (OReplace t e v) = Ok (d', m) ∧ rinv (with_comp s (upd (ss_comp s) t e (Some v))) d' m.
Proof.
  intros I He Ht [v0 Hn] Hold Hemp Hv. destruct (ri_ent _ _ _ I e He) as (l & Hl & Ha & Hge & M).
  pose proof (M t Ht) as Mt. rewrite Hn in Mt. destruct (rg_comp d !! (t, l)) as [w|] eqn:Ew; [|done].
  eexists. split; [by apply op_replace|]. destruct (empty_ty t) eqn:Et.
  - eapply rinv_write; [done|exact He|exact Hl|done|done|done|done| |].
    + rewrite Ew. rewrite Hemp by done. rewrite (Hold v0 Hn) in Mt by done. exact Mt.
    + intros v' [= <-]. eapply val_ok_mono; [|exact Hv]. intros r Hr. by eapply ri_obs.
  - eapply rinv_write; [done|exact He|exact Hl|done|done|done|apply put_other| |].
    + cbn. rewrite lookup_insert. intros [P|P]; [congruence|]. rewrite P.
      apply val_child. eapply val_ok_mono; [|exact Hv]. intros r Hr. by eapply obs_refd.
    + intros v' [= <-]. eapply val_ok_mono; [|exact Hv]. intros r Hr. by eapply ri_obs.
Qed.
Lemma step_remove s d m t e :
  rinv s d m → e ∈ ss_obs s → t ∈ shared →
  ∃ d', op1 (d, m) (ORemove t e) = Ok (d', m) ∧ rinv (with_comp s (upd (ss_comp s) t e None)) d' m.
Proof.
  intros I He Ht. destruct (ri_ent _ _ _ I e He) as (l & Hl & Ha & Hge & M).
  eexists. split; [by apply op_remove|]. eapply rinv_write; [done|exact He|exact Hl|done|done|done|apply del_other| |].
  - cbn. by rewrite lookup_delete.
  - done.
Qed.

(** ** Several components of one entity *)
Lemma remove_list e src : ∀ ts s d m,
  rinv s d m → e ∈ ss_obs s → ts ⊆ shared → (∀ t, rg_comp src !! (t, e) = None → ss_comp s t e = None) →
  ∃ d', exec (d, m) (omap (λ t, v ← rg_comp src !! (t, e); Some (ORemove t e)) ts) = Ok (d', m) ∧
    rinv (with_comp s (λ t e', if decide (t ∈ ts ∧ e' = e) then None else ss_comp s t e')) d' m.
Proof.
  induction ts as [|t ts IH]; intros s d m I He Hts Hs.
  - exists d. split; [done|]. eapply rinv_ext; [exact I|done|done|]. intros t e' _ _. cbn.
    rewrite decide_False; [done|]. intros [H _]. by apply elem_of_nil in H.
  - assert (Ht : t ∈ shared) by (apply Hts; left). assert (Hts' : ts ⊆ shared) by set_solver.
    cbn [omap list_omap]. destruct (rg_comp src !! (t, e)) as [v|] eqn:Ev; cbn [mbind option_bind].
    + destruct (step_remove s d m t e I He Ht) as (d1 & E1 & I1).
      destruct (IH _ d1 m I1 He Hts') as (d2 & E2 & I2).
      { intros t' H. cbn. unfold upd. case_decide; [done|]. by apply Hs. }
      exists d2. split; [cbn [exec_ops]; rewrite E1; exact E2|].
      eapply rinv_ext; [exact I2|done|done|]. intros t' e' _ _. cbn. unfold upd.
      repeat case_decide; try done; set_solver.
    + destruct (IH s d m I He Hts' Hs) as (d2 & E2 & I2). exists d2. split; [exact E2|].
      eapply rinv_ext; [exact I2|done|done|]. intros t' e' _ _. cbn.
      destruct (decide (t' = t)) as [->|Hne].
      * destruct (decide (e' = e)) as [->|He']; [|repeat case_decide; set_solver].
        rewrite decide_True by (split; [left|done]). case_decide; [done|]. symmetry. by apply Hs.
      * repeat case_decide; try done; set_solver.
Qed.
Lemma emplace_list e (src : nat → option (list mem)) : ∀ ts s d m,
  rinv s d m → e ∈ ss_obs s → ts ⊆ shared →
  (∀ t, ss_comp s t e = None ∨ ss_comp s t e = src t) →
  (∀ t v, t ∈ shared → src t = Some v → (empty_ty t = true → v = []) ∧ val_ok (λ r, r ∈ ss_obs s) v) →
  ∃ d', exec (d, m) (omap (λ t, v ← src t; Some (OEmplace t e v)) ts) = Ok (d', m) ∧
    rinv (with_comp s (λ t e', if decide (t ∈ ts ∧ e' = e) then src t else ss_comp s t e')) d' m.
Proof.
  induction ts as [|t ts IH]; intros s d m I He Hts Hs Hv.
  - exists d. split; [done|]. eapply rinv_ext; [exact I|done|done|]. intros t e' _ _. cbn.
    rewrite decide_False; [done|]. intros [H _]. by apply elem_of_nil in H.
  - assert (Ht : t ∈ shared) by (apply Hts; left). assert (Hts' : ts ⊆ shared) by set_solver.
    cbn [omap list_omap]. destruct (src t) as [v|] eqn:Ev; cbn [mbind option_bind].
    + destruct (Hv t v Ht Ev) as [Hemp Hval].
      assert (∃ d1, op1 (d, m) (OEmplace t e v) = Ok (d1, m) ∧
                    rinv (with_comp s (upd (ss_comp s) t e (Some v))) d1 m) as (d1 & E1 & I1).
      { destruct (ss_comp s t e) as [v'|] eqn:Ec; [|by apply step_emplace].
        destruct (Hs t) as [?|H]; [congruence|]. rewrite Ev in H. rewrite H in Ec. injection Ec as <-.
        destruct (ri_ent _ _ _ I e He) as (l & Hl & Ha & Hge & M). exists d. split.
        - apply op_emplace_present with (l := l); [done|]. specialize (M t Ht). rewrite H in M.
          destruct (rg_comp d !! (t, l)); [by eexists|done].
        - eapply rinv_ext; [exact I|done|done|]. intros t' e' _ _. cbn. unfold upd.
          case_decide as D; [|done]. destruct D as [-> ->]. done. }
      destruct (IH _ d1 m I1 He Hts') as (d2 & E2 & I2).
      { intros t'. cbn. unfold upd. case_decide as D; [right; destruct D as [-> _]; done|]. apply Hs. }
      { exact Hv. }
      exists d2. split; [cbn [exec_ops]; rewrite E1; exact E2|].
      eapply rinv_ext; [exact I2|done|done|]. intros t' e' _ _. cbn. unfold upd.
      destruct (decide (t' = t)) as [->|Hne]; repeat case_decide; try done; set_solver.
    + destruct (IH s d m I He Hts' Hs Hv) as (d2 & E2 & I2). exists d2. split; [exact E2|].
      eapply rinv_ext; [exact I2|done|done|]. intros t' e' _ _. cbn.
      destruct (decide (t' = t)) as [->|Hne].
      * destruct (decide (e' = e)) as [->|He']; [|repeat case_decide; set_solver].
        rewrite decide_True by (split; [left|done]). case_decide; [done|]. rewrite Ev.
        destruct (Hs t) as [Hx|Hx]; rewrite Hx; congruence.
      * repeat case_decide; try done; set_solver.
Qed.

(** ** Creating and destroying the counterpart *)
Lemma step_create s d m e :
  rinv s d m → e ∉ ss_seen s →
  ∃ d' m', op1 (d, m) (OCreate e) = Ok (d', m') ∧
    rinv (SState (ss_alive s) (ss_next s) (λ t e', if decide (e' = e) then None else ss_comp s t e')
            ({[e]} ∪ ss_obs s) ({[e]} ∪ ss_seen s)) d' m'.
Proof.
  intros I He. pose proof (ri_wf _ _ _ I) as W.
  assert (C : em_map m !! e = None).
  { destruct (em_map m !! e) eqn:E; [|done]. apply (ri_keys _ _ _ I) in E. done. }
  destruct (op_exec_ok merge empty_ty d m (OCreate e) W Logic.I) as (d' & m' & E & W').
  exists d', m'. split; [done|]. revert E. cbn [op_exec]. rewrite (proj2 (em_contains_false m e) C). cbn [rg_create].
  unfold em_insert. rewrite (bool_decide_true (em_map m !! e = None)) by done. cbn [assert_ mbind res_bind].
  assert (Hn : em_local m !! rg_next d = None).
  { destruct (em_local m !! rg_next d) eqn:E; [|done]. apply (dw_known _ _ W) in E. lia. }
  rewrite bool_decide_true by done. cbn [assert_ mbind res_bind]. intros [= <- <-].
  assert (Hnc : ∀ t, rg_comp d !! (t, rg_next d) = None).
  { intros t. destruct (rg_comp d !! (t, rg_next d)) eqn:E; [|done].
    apply (dw_comp _ _ W) in E. apply (dw_issued _ _ W) in E. lia. }
  constructor; cbn.
  - done.
  - intros e' l [[<- _]|[_ H]]%lookup_insert_Some; [set_solver|]. apply elem_of_union_r. by eapply ri_keys.
  - intros e' [->%elem_of_singleton|H]%elem_of_union; [set_solver|]. apply elem_of_union_r. by eapply ri_obs.
  - intros e' H. destruct (decide (e' = e)) as [->|Hne].
    + exists (rg_next d). rewrite lookup_insert. split_and!; [done|set_solver|apply I|].
      intros t _. by rewrite Hnc.
    + assert (He' : e' ∈ ss_obs s) by set_solver.
      destruct (ri_ent _ _ _ I e' He') as (l & Hl & Ha & Hge & M). exists l.
      rewrite lookup_insert_ne by done. split_and!; [done|set_solver|done|]. intros t Ht.
      specialize (M t Ht). pose proof (ri_refs _ _ _ I e' t) as R.
      destruct (ss_comp s t e') as [v|] eqn:Ev, (rg_comp d !! (t, l)) as [w|]; try done. cbn. intros P.
      eapply val_match_change; [|by apply R|by apply M]. cbn. intros r x Hr [[-> _]|[_ H']]%lookup_insert_Some; [done|done].
  - intros e' t v H Ht. case_decide as D; [done|]. intros Hv. assert (He' : e' ∈ ss_obs s) by set_solver.
    eapply val_ok_mono; [|by eapply ri_refs]. cbn. set_solver.
  - intros e' l H. destruct (ri_init _ _ _ I e' l H) as [H1 H2].
    assert (e' ≠ e) by (intros ->; congruence). rewrite lookup_insert_ne by done. split; [done|set_solver].
  - pose proof (ri_next _ _ _ I). lia.
  - intros l H. destruct (ri_frame _ _ _ I l H) as [H1 H2]. split; [set_solver|done].
  - intros l [->%elem_of_singleton|H]%elem_of_union.
    + right. exists e. rewrite lookup_insert. split; [set_solver|done].
    + destruct (ri_alive _ _ _ I l H) as [?|(e' & H1 & H2)]; [by left|right].
      exists e'. rewrite lookup_insert_ne by congruence. split; [set_solver|done].
  - apply I.
Qed.
Lemma step_destroy s d m e :
  rinv s d m → e ∈ ss_obs s →
  ∃ d' m', op1 (d, m) (ODestroy e) = Ok (d', m') ∧
    rinv (SState (ss_alive s) (ss_next s) (ss_comp s) (ss_obs s ∖ {[e]}) (ss_seen s)) d' m'.
Proof.
  intros I He. pose proof (ri_wf _ _ _ I) as W. destruct (ri_ent _ _ _ I e He) as (l & Hl & Ha & Hge & _).
  cbn [op_exec]. rewrite (proj2 (em_contains_true m e)) by (by eexists).
  unfold em_at, em_erase. rewrite Hl. cbn [mbind res_bind opt_res]. eexists _, _. split; [done|].
  pose proof (dwf_destroy d m e l W Hl) as W'. rewrite (proj2 (rg_valid_true d l) Ha) in W' |- *.
  assert (Hn0 : l ∉ rg_alive d0) by (intros H; apply (dw_issued _ _ W0) in H; lia).
  constructor; cbn.
  - done.
  - intros e' l' [_ H]%lookup_delete_Some. by eapply ri_keys.
  - intros e' [H _]%elem_of_difference. by eapply ri_obs.
  - intros e' [H Hne]%elem_of_difference. destruct (ri_ent _ _ _ I e' H) as (l' & Hl' & Ha' & Hge' & M).
    assert (e ≠ e') as Hne' by set_solver. exists l'.
    assert (l' ≠ l). { intros ->. apply (dw_bij _ _ W) in Hl', Hl. congruence. }
    rewrite lookup_delete_ne by done. split_and!; [done|set_solver|done|]. intros t Ht.
    assert (Ef : filter (λ kv : nat * nat * list mem, kv.1.2 ≠ l) (rg_comp d) !! (t, l') = rg_comp d !! (t, l')).
    { destruct (rg_comp d !! (t, l')) as [w|] eqn:E.
      - by apply map_filter_lookup_Some.
      - apply map_filter_lookup_None. by left. }
    rewrite Ef. specialize (M t Ht). pose proof (ri_refs _ _ _ I e' t) as R.
    destruct (ss_comp s t e') as [v|] eqn:Ev, (rg_comp d !! (t, l')) as [w|]; try done. cbn. intros P.
    eapply val_match_change; [|by apply R|by apply M]. cbn. by intros r x _ [_ H']%lookup_delete_Some.
  - intros e' t v [H _]%elem_of_difference. by eapply ri_refs.
  - intros e' l' H. destruct (ri_init _ _ _ I e' l' H) as [H1 H2].
    rewrite lookup_delete_ne by (intros ->; done). split; [done|set_solver].
  - apply I.
  - intros l' H. destruct (ri_frame _ _ _ I l' H) as [H1 H2]. assert (l' ≠ l) by (intros ->; done).
    split; [set_solver|]. intros t. rewrite <- H2. destruct (rg_comp d !! (t, l')) as [w|] eqn:E.
    + by apply map_filter_lookup_Some.
    + apply map_filter_lookup_None. by left.
  - intros l' [H Hne]%elem_of_difference. destruct (ri_alive _ _ _ I l' H) as [?|(e' & H1 & H2)]; [by left|right].
    assert (e ≠ e') by (intros ->; set_solver). exists e'. rewrite lookup_delete_ne by done. split; [set_solver|done].
  - intros t l' v [H _]%map_filter_lookup_Some. by eapply ri_types.
Qed.

(** ** The whole system *)
Local Notation sstep := (sstep shared empty_ty).
Local Notation srun := (srun shared empty_ty).
Local Notation ystep := (sys_step merge empty_ty shared).

Record yinv (s : sstate) (y : sys) : Prop := {
  yi_alive : rg_alive (y_src y) = ss_alive s;
  yi_next : rg_next (y_src y) = ss_next s;
  yi_comp : ∀ t e, rg_comp (y_src y) !! (t, e) = ss_comp s t e;
  yi_obs : y_obs y = ss_obs s;
  yi_emp : ∀ t e v, ss_comp s t e = Some v → empty_ty t = true → v = [];
  yi_dst : ∃ d m, exec (y_dst y, y_map y) (y_ops y) = Ok (d, m) ∧ rinv s d m
}.

Lemma yinv_rec s y s' src obs ops :
  yinv s y → rg_alive src = ss_alive s' → rg_next src = ss_next s' →
  (∀ t e, rg_comp src !! (t, e) = ss_comp s' t e) → obs = ss_obs s' →
  (∀ t e v, ss_comp s' t e = Some v → empty_ty t = true → v = []) →
  (∀ d m, rinv s d m → ∃ d' m', exec (d, m) ops = Ok (d', m') ∧ rinv s' d' m') →
  yinv s' (y_rec y src obs ops).
Proof.
  intros Y Ea En Ec Eo Ee H. destruct (yi_dst _ _ Y) as (d & m & E & I).
  destruct (H d m I) as (d' & m' & E' & I'). constructor; cbn; [done..|].
  exists d', m'. rewrite exec_app, E. done.
Qed.
Lemma exec1 s o s' : op1 s o = Ok s' → exec s [o] = Ok s'.
Proof. intros E. cbn [exec_ops]. by rewrite E. Qed.

Lemma upd_emp s t e (o : option (list mem)) :
  (∀ t e v, ss_comp s t e = Some v → empty_ty t = true → v = []) →
  (∀ v, o = Some v → empty_ty t = true → v = []) →
  ∀ t' e' v, upd (ss_comp s) t e o t' e' = Some v → empty_ty t' = true → v = [].
Proof. intros H Ho t' e' v. unfold upd. case_decide as D; [destruct D as [-> ->]; apply Ho|apply H]. Qed.

Lemma ystep_sim s a s' y : sstep s a s' → yinv s y → ∃ y', ystep y a = Ok y' ∧ yinv s' y'.
Proof.
  intros St Y. pose proof (yi_emp _ _ Y) as Ee. pose proof (yi_comp _ _ Y) as Ec.
  pose proof (yi_alive _ _ Y) as Ea. pose proof (yi_next _ _ Y) as En. pose proof (yi_obs _ _ Y) as Eo.
  destruct St as [s|s e Ha|s t e v Ha Hn [Hw1 Hw2]|s t e v [v0 Hn] [Hw1 Hw2]|s t e|s e Ha Hs Hv|s e He|s]; cbn [sys_step].
  - eexists. split; [done|]. eapply yinv_rec; [exact Y|cbn; congruence..|exact Ec|exact Eo|exact Ee|].
    intros d m I. exists d, m. split; [done|]. by eapply rinv_ext.
  - rewrite (proj2 (rg_valid_true (y_src y) e)) by (by rewrite Ea). cbn [require_ mbind res_bind].
    eexists. split; [done|]. eapply yinv_rec; [exact Y|cbn; congruence..| |exact Eo| |].
    + intros t e'. cbn. case_decide as D.
      * apply map_filter_lookup_None. right. intros v _. simpl. congruence.
      * rewrite <- Ec. destruct (rg_comp (y_src y) !! (t, e')) as [w|] eqn:E.
        -- by apply map_filter_lookup_Some.
        -- apply map_filter_lookup_None. by left.
    + intros t e' v. cbn. case_decide; [done|]. apply Ee.
    + intros d m I. case_bool_decide as D; rewrite Eo in D.
      * destruct (remove_list e (y_src y) shared s d m I D) as (d' & E' & I'); [done| |].
        { intros t Ht. by rewrite <- Ec. }
        exists d', m. split; [exact E'|]. eapply rinv_ext; [exact I'|done|done|].
        intros t e' Ht He'. cbn. repeat case_decide; try done; set_solver.
      * exists d, m. split; [done|]. eapply rinv_ext; [exact I|done|done|].
        intros t e' Ht He'. cbn. case_decide; [|done]. subst. done.
  - unfold rg_emplace. rewrite (proj2 (rg_valid_true (y_src y) e)) by (by rewrite Ea).
    rewrite (proj2 (rg_has_false (y_src y) t e)) by (by rewrite Ec). cbn [negb andb require_ mbind res_bind].
    eexists. split; [done|]. eapply yinv_rec; [exact Y|done|done| |exact Eo| |].
    + intros t' e'. cbn. unfold upd. case_decide as D.
      * destruct D as [-> ->]. by rewrite lookup_insert.
      * rewrite lookup_insert_ne; [apply Ec|]. intros [= -> ->]. by apply D.
    + cbn. apply upd_emp; [done|]. intros v' [= <-]. done.
    + intros d m I. unfold rec_if. rewrite Eo. case_bool_decide as D1; cbn [andb]; [case_bool_decide as D2|].
      * destruct (step_emplace s d m t e v I D2 D1 Hn Hw1 (Hw2 D2 D1)) as (d' & E' & I').
        exists d', m. split; [by apply exec1|done].
      * exists d, m. split; [done|]. eapply rinv_ext; [exact I|done|done|]. intros t' e' Ht He'. cbn. unfold upd.
        case_decide as D; [|done]. destruct D as [-> ->]. done.
      * exists d, m. split; [done|]. eapply rinv_ext; [exact I|done|done|]. intros t' e' Ht He'. cbn. unfold upd.
        case_decide as D; [|done]. destruct D as [-> ->]. done.
  - unfold rg_patch. rewrite Ec, Hn. cbn [opt_res mbind res_bind]. eexists. split; [done|].
    eapply yinv_rec; [exact Y|done|done| |exact Eo| |].
    + intros t' e'. cbn. unfold upd. case_decide as D.
      * destruct D as [-> ->]. by rewrite lookup_insert.
      * rewrite lookup_insert_ne; [apply Ec|]. intros [= -> ->]. by apply D.
    + cbn. apply upd_emp; [done|]. intros v' [= <-]. done.
    + intros d m I. unfold rec_if. rewrite Eo. case_bool_decide as D1; cbn [andb]; [case_bool_decide as D2|].
      * destruct (step_replace s d m t e v I D2 D1) as (d' & E' & I'); [by eexists|by intros; eapply Ee|done|by apply Hw2|].
        exists d', m. split; [by apply exec1|done].
      * exists d, m. split; [done|]. eapply rinv_ext; [exact I|done|done|]. intros t' e' Ht He'. cbn. unfold upd.
        case_decide as D; [|done]. destruct D as [-> ->]. done.
      * exists d, m. split; [done|]. eapply rinv_ext; [exact I|done|done|]. intros t' e' Ht He'. cbn. unfold upd.
        case_decide as D; [|done]. destruct D as [-> ->]. done.
  - destruct (rg_has (y_src y) t e) eqn:Hh.
    + eexists. split; [done|]. eapply yinv_rec; [exact Y|done|done| |exact Eo| |].
      * intros t' e'. cbn. unfold upd. case_decide as D.
        -- destruct D as [-> ->]. by rewrite lookup_delete.
        -- rewrite lookup_delete_ne; [apply Ec|]. intros [= -> ->]. by apply D.
      * cbn. by apply upd_emp.
      * intros d m I. unfold rec_if. rewrite Eo. case_bool_decide as D1; cbn [andb]; [case_bool_decide as D2|].
        -- destruct (step_remove s d m t e I D2 D1) as (d' & E' & I').
           exists d', m. split; [by apply exec1|done].
        -- exists d, m. split; [done|]. eapply rinv_ext; [exact I|done|done|]. intros t' e' Ht He'. cbn. unfold upd.
           case_decide as D; [|done]. destruct D as [-> ->]. done.
        -- exists d, m. split; [done|]. eapply rinv_ext; [exact I|done|done|]. intros t' e' Ht He'. cbn. unfold upd.
           case_decide as D; [|done]. destruct D as [-> ->]. done.
    + apply rg_has_false in Hh. rewrite Ec in Hh. eexists. split; [done|].
      assert (Eu : ∀ t' e', upd (ss_comp s) t e None t' e' = ss_comp s t' e').
      { intros t' e'. unfold upd. case_decide as D; [|done]. destruct D as [-> ->]. done. }
      destruct (yi_dst _ _ Y) as (d & m & E & I).
      constructor; cbn; [done..| | | |].
      * intros t' e'. by rewrite Eu.
      * done.
      * intros t' e' v. rewrite Eu. apply Ee.
      * exists d, m. split; [done|]. eapply rinv_ext; [exact I|done|done|]. intros. cbn. apply Eu.
  - rewrite Eo. rewrite bool_decide_false.
    2: { intros H. destruct (yi_dst _ _ Y) as (d & m & E & I). by apply (ri_obs _ _ _ I) in H. }
    cbn [negb require_ mbind res_bind]. eexists. split; [done|].
    eapply yinv_rec; [exact Y|done|done|exact Ec|done|exact Ee|].
    intros d m I. destruct (step_create s d m e I Hs) as (d1 & m1 & E1 & I1).
    destruct (emplace_list e (λ t, rg_comp (y_src y) !! (t, e)) shared _ d1 m1 I1) as (d2 & E2 & I2).
    { cbn. set_solver. } { done. } { intros t. cbn. rewrite decide_True by done. by left. }
    { intros t v Ht. cbn. rewrite Ec. intros Hv'. split; [by eapply Ee|by eapply Hv]. }
    exists d2, m1. split; [cbn [exec_ops]; rewrite E1; exact E2|].
    eapply rinv_ext; [exact I2|done|done|]. intros t e' Ht He'. cbn. destruct (decide (e' = e)) as [->|Hne].
    + rewrite decide_True by done. symmetry. apply Ec.
    + rewrite decide_False by (by intros [_ ?]). done.
  - rewrite Eo. rewrite bool_decide_true by done. cbn [require_ mbind res_bind]. eexists. split; [done|].
    eapply yinv_rec; [exact Y|done|done|exact Ec|done|exact Ee|].
    intros d m I. destruct (step_destroy s d m e I He) as (d1 & m1 & E1 & I1).
    exists d1, m1. split; [by apply exec1|done].
  - destruct (yi_dst _ _ Y) as (d & m & E & I). rewrite E. cbn [mbind res_bind]. eexists. split; [done|].
    constructor; cbn; [done..|]. by exists d, m.
Qed.

Lemma yrun_sim acts : ∀ s s' y, srun s acts s' → yinv s y → ∃ y', rrun ystep y acts = Ok y' ∧ yinv s' y'.
Proof.
  induction acts as [|a acts IH]; intros s s' y R Y; inversion R; subst.
  - by exists y.
  - edestruct ystep_sim as (y1 & E1 & Y1); [done|done|]. edestruct IH as (y2 & E2 & Y2); [done|done|].
    exists y2. split; [|done]. cbn [rrun]. rewrite E1. exact E2.
Qed.
End mirror.

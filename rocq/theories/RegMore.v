(** Further facts about replication and operation storage (RegModel.v). *)
From Verif Require Import Outcome MapModel MapProofs RegModel RegSpec RegProofs RegMirror.

Section more.
Variable merge : nat → list mem → list mem → list mem.
Variable empty_ty : nat → bool.
Local Notation exec := (exec_ops merge empty_ty).
Local Notation op1 := (op_exec merge empty_ty).

(** ** A mapped entity stays mapped until destroyed *)
Lemma op_keeps d m o d' m' e l :
  op1 (d, m) o = Ok (d', m') → em_map m !! e = Some l → o ≠ ODestroy e → em_map m' !! e = Some l.
Proof.
  intros E El Ho. destruct o as [e'|e'|e' l'|t e' v|t e' v|t e']; cbn [op_exec] in E.
  - destruct (em_contains m e') eqn:C; [congruence|]. apply em_contains_false in C. cbn [rg_create] in E.
    apply bind_ok in E as (m1 & E1 & [= <- <-]). unfold em_insert in E1.
    apply bind_ok in E1 as (_ & _ & E1). apply bind_ok in E1 as (_ & _ & [= <-]). cbn.
    rewrite lookup_insert_ne; [done|]. intros ->. congruence.
  - destruct (em_contains m e') eqn:C; [|congruence]. apply bind_ok in E as (l' & _ & E).
    apply bind_ok in E as (m1 & E1 & [= <- <-]). unfold em_erase in E1.
    apply bind_ok in E1 as (l2 & _ & [= <-]). cbn. rewrite lookup_delete_ne; [done|]. congruence.
  - destruct (rg_valid d l'); [|congruence]. destruct (em_contains m e') eqn:C.
    + apply bind_ok in E as (l2 & _ & E). apply bind_ok in E as (_ & _ & E). congruence.
    + apply em_contains_false in C. apply bind_ok in E as (m1 & E1 & [= <- <-]). unfold em_insert in E1.
      apply bind_ok in E1 as (_ & _ & E1). apply bind_ok in E1 as (_ & _ & [= <-]). cbn.
      rewrite lookup_insert_ne; [done|]. intros ->. congruence.
  - destruct (em_contains m e'); [|congruence]. apply bind_ok in E as (l' & _ & E).
    destruct (_ || _); [congruence|]. apply bind_ok in E as (d1 & _ & E). congruence.
  - destruct (empty_ty t); [congruence|]. destruct (em_contains m e'); [|congruence].
    apply bind_ok in E as (l' & _ & E). destruct (_ || _); [congruence|].
    apply bind_ok in E as (d1 & _ & E). congruence.
  - destruct (em_contains m e'); [|congruence]. apply bind_ok in E as (l' & _ & E). congruence.
Qed.
Lemma exec_keeps ops : ∀ d m d' m' e l,
  exec (d, m) ops = Ok (d', m') → em_map m !! e = Some l → ODestroy e ∉ ops → em_map m' !! e = Some l.
Proof.
  induction ops as [|o ops IH]; intros d m d' m' e l E El Hn; cbn [exec_ops] in E; [congruence|].
  apply bind_ok in E as ([d1 m1] & E1 & E2). apply not_elem_of_cons in Hn as [Hn1 Hn2].
  eapply IH; [exact E2| |done]. eapply op_keeps; [done|done|congruence].
Qed.
Lemma op_create_mapped d m e : is_Some (em_map m !! e) → op1 (d, m) (OCreate e) = Ok (d, m).
Proof. intros H%em_contains_true. cbn [op_exec]. by rewrite H. Qed.
Lemma op_create_maps d m e d' m' : op1 (d, m) (OCreate e) = Ok (d', m') → is_Some (em_map m' !! e).
Proof.
  cbn [op_exec]. destruct (em_contains m e) eqn:C.
  - intros [= <- <-]. by apply em_contains_true.
  - cbn [rg_create]. intros E. apply bind_ok in E as (m1 & E1 & [= <- <-]). unfold em_insert in E1.
    apply bind_ok in E1 as (_ & _ & E1). apply bind_ok in E1 as (_ & _ & [= <-]). cbn.
    rewrite lookup_insert. by eexists.
Qed.
(** A repeated create operation changes nothing. *)
Lemma exec_create_twice s e ops1 ops2 ops3 :
  ODestroy e ∉ ops2 →
  exec s (ops1 ++ OCreate e :: ops2 ++ OCreate e :: ops3) = exec s (ops1 ++ OCreate e :: ops2 ++ ops3).
Proof.
  intros Hn. rewrite !exec_app. destruct (exec s ops1) as [[d m]| | |]; [|done..]. cbn [mbind res_bind exec_ops].
  destruct (op1 (d, m) (OCreate e)) as [[d1 m1]| | |] eqn:E1; [|done..]. cbn [mbind res_bind]. rewrite !exec_app.
  destruct (exec (d1, m1) ops2) as [[d2 m2]| | |] eqn:E2; [|done..]. cbn [mbind res_bind exec_ops].
  apply op_create_maps in E1 as [l El]. pose proof (exec_keeps _ _ _ _ _ _ _ E2 El Hn) as H.
  rewrite op_create_mapped by (by eexists). done.
Qed.

(** ** Frame: entities not named by an operation are untouched *)
Definition names (o : opn) (e : nat) : Prop :=
  match o with
  | OCreate e' | ODestroy e' | OMapEntity e' _ | OEmplace _ e' _ | OReplace _ e' _ | ORemove _ e' => e = e'
  end.
Definition same_at (d d' : reg) (l : nat) : Prop :=
  l ∈ rg_alive d' ∧ ∀ t, rg_comp d' !! (t, l) = rg_comp d !! (t, l).
Lemma op_frame d m o d' m' l :
  dwf d m → l ∈ rg_alive d → op1 (d, m) o = Ok (d', m') →
  (∀ e, names o e → em_map m !! e ≠ Some l) → same_at d d' l.
Proof.
  intros W Ha E Hn. assert (R : same_at d d l) by done.
  assert (K : ∀ e l', names o e → em_map m !! e = Some l' → l ≠ l') by (intros e l' H1 H2 ->; by eapply Hn).
  destruct o as [e'|e'|e' l'|t e' v|t e' v|t e']; cbn [op_exec] in E; (destruct (em_contains m e') eqn:C; [|]).
  - by injection E as <- <-.
  - cbn [rg_create] in E. apply bind_ok in E as (m1 & E1 & [= <- <-]). split; [cbn; set_solver|done].
  - unfold em_at in E. destruct (em_map m !! e') as [l'|] eqn:El; [|done]. cbn [opt_res mbind res_bind] in E.
    apply bind_ok in E as (m1 & E1 & [= <- <-]). specialize (K e' l' eq_refl El).
    destruct (rg_valid d l'); [|done]. split; [cbn; set_solver|]. intros t. cbn.
    destruct (rg_comp d !! (t, l)) as [w|] eqn:Ew.
    + by apply map_filter_lookup_Some.
    + apply map_filter_lookup_None. by left.
  - by injection E as <- <-.
  - destruct (rg_valid d l'); [|by injection E as <- <-].
    apply bind_ok in E as (l2 & _ & E). apply bind_ok in E as (_ & _ & E). by injection E as <- <-.
  - destruct (rg_valid d l'); [|by injection E as <- <-].
    apply bind_ok in E as (m1 & E1 & [= <- <-]). done.
  - unfold em_at in E. destruct (em_map m !! e') as [l'|] eqn:El; [|done]. cbn [opt_res mbind res_bind] in E.
    destruct (_ || _); [by injection E as <- <-|]. apply bind_ok in E as (d1 & E1 & [= <- <-]).
    unfold rg_emplace in E1. apply bind_ok in E1 as (_ & _ & [= <-]). specialize (K e' l' eq_refl El).
    split; [done|]. intros t'. apply put_other. congruence.
  - by injection E as <- <-.
  - destruct (empty_ty t); [by injection E as <- <-|]. unfold em_at in E.
    destruct (em_map m !! e') as [l'|] eqn:El; [|done]. cbn [opt_res mbind res_bind] in E.
    destruct (_ || _); [by injection E as <- <-|]. apply bind_ok in E as (d1 & E1 & [= <- <-]).
    unfold rg_patch in E1. apply bind_ok in E1 as (c & _ & [= <-]). specialize (K e' l' eq_refl El).
    split; [done|]. intros t'. apply put_other. congruence.
  - destruct (empty_ty t); by injection E as <- <-.
  - unfold em_at in E. destruct (em_map m !! e') as [l'|] eqn:El; [|done]. cbn [opt_res mbind res_bind] in E.
    injection E as <- <-. specialize (K e' l' eq_refl El). destruct (rg_valid d l'); [|done].
    split; [done|]. intros t'. apply del_other. congruence.
  - by injection E as <- <-.
Qed.
Lemma op_new_key d m o d' m' e l :
  dwf d m → not_map o → op1 (d, m) o = Ok (d', m') → l ∈ rg_alive d →
  em_map m !! e ≠ Some l → em_map m' !! e ≠ Some l.
Proof.
  intros W N E Ha Hn H. destruct o as [e'|e'|e' l'|t e' v|t e' v|t e']; cbn [op_exec] in E; [..|].
  - destruct (em_contains m e') eqn:C; [congruence|]. cbn [rg_create] in E.
    apply bind_ok in E as (m1 & E1 & [= <- <-]). unfold em_insert in E1.
    apply bind_ok in E1 as (_ & _ & E1). apply bind_ok in E1 as (_ & _ & [= <-]). cbn in H.
    apply lookup_insert_Some in H as [[_ <-]|[_ H]]; [|done]. apply (dw_issued _ _ W) in Ha. lia.
  - destruct (em_contains m e') eqn:C; [|congruence]. apply bind_ok in E as (l' & _ & E).
    apply bind_ok in E as (m1 & E1 & [= <- <-]). unfold em_erase in E1.
    apply bind_ok in E1 as (l2 & _ & [= <-]). cbn in H. apply lookup_delete_Some in H as [_ H]. done.
  - done.
  - destruct (em_contains m e'); [|congruence]. apply bind_ok in E as (l' & _ & E).
    destruct (_ || _); [congruence|]. apply bind_ok in E as (d1 & _ & E). congruence.
  - destruct (empty_ty t); [congruence|]. destruct (em_contains m e'); [|congruence].
    apply bind_ok in E as (l' & _ & E). destruct (_ || _); [congruence|].
    apply bind_ok in E as (d1 & _ & E). congruence.
  - destruct (em_contains m e'); [|congruence]. apply bind_ok in E as (l' & _ & E). congruence.
Qed.
Lemma exec_frame ops : ∀ d m d' m' l,
  dwf d m → Forall not_map ops → l ∈ rg_alive d → exec (d, m) ops = Ok (d', m') →
  (∀ o e, o ∈ ops → names o e → em_map m !! e ≠ Some l) → same_at d d' l.
Proof.
  induction ops as [|o ops IH]; intros d m d' m' l W F Ha E Hn; cbn [exec_ops] in E.
  - by injection E as <- <-.
  - apply Forall_cons in F as [Fo F]. apply bind_ok in E as ([d1 m1] & E1 & E2).
    destruct (op_exec_ok merge empty_ty d m o W Fo) as (d1' & m1' & E1' & W1).
    rewrite E1 in E1'. injection E1' as <- <-.
    destruct (op_frame d m o d1 m1 l W Ha E1) as [A1 A2]; [intros e; apply Hn; left|].
    destruct (IH d1 m1 d' m' l W1 F A1 E2) as [B1 B2].
    { intros o' e Ho' He. eapply op_new_key; [exact W|exact Fo|exact E1|done|]. eapply Hn; [by right|done]. }
    split; [done|]. intros t. by rewrite B2.
Qed.

(** ** Remapping followed by local execution *)
Definition comp_op (o : opn) : option (nat * list mem) :=
  match o with
  | OEmplace _ e v | OReplace _ e v => Some (e, v)
  | ORemove _ e => Some (e, [])
  | _ => None
  end.
Lemma mem_child_nv d m x : mem_ok (refd d m) x → inval_mem d (map_mem m x) = map_mem m x.
Proof.
  destruct x as [n|o|l|l|a]; cbn [mem_ok map_mem inval_mem]; [done|..|done].
  - destruct o as [r|]; [|done]. simpl. intros (l & Hl & Ha).
    replace (em_contains m r) with true by (symmetry; apply em_contains_true; by eexists).
    rewrite Hl. simpl. apply rg_valid_true in Ha. by rewrite Ha.
  - intros (rs & n & -> & F). destruct (refs_list _ _ _ F) as (ls & E1 & E2 & F2).
    rewrite fmap_app, E1, fmap_replicate. simpl. rewrite rm_null_arr_ok, fmap_app, E2, fmap_replicate.
    simpl. by rewrite rm_null_arr_ok.
  - intros (rs & -> & F). destruct (refs_list _ _ _ F) as (ls & E1 & E2 & F2).
    by rewrite E1, rm_null_seq_ok, E2, rm_null_seq_ok.
Qed.
Lemma val_child_nv d m v : val_ok (refd d m) v → map_child d m v = map_child_nv m v.
Proof.
  intros F. unfold map_child, map_child_nv. induction F as [|x v Hx _ IH]; [done|].
  rewrite !fmap_cons, mem_child_nv by done. by rewrite IH.
Qed.
Lemma comp_op_alive d m o d' m' e v :
  comp_op o = Some (e, v) → op1 (d, m) o = Ok (d', m') → rg_alive d' = rg_alive d ∧ m' = m.
Proof.
  intros C E. destruct o as [e'|e'|e' l'|t e' v'|t e' v'|t e']; try done; cbn [op_exec] in E.
  - destruct (em_contains m e'); [|by injection E as <- <-]. apply bind_ok in E as (l' & _ & E).
    destruct (_ || _); [by injection E as <- <-|]. apply bind_ok in E as (d1 & E1 & [= <- <-]).
    unfold rg_emplace in E1. apply bind_ok in E1 as (_ & _ & [= <-]). done.
  - destruct (empty_ty t); [by injection E as <- <-|].
    destruct (em_contains m e'); [|by injection E as <- <-]. apply bind_ok in E as (l' & _ & E).
    destruct (_ || _); [by injection E as <- <-|]. apply bind_ok in E as (d1 & E1 & [= <- <-]).
    unfold rg_patch in E1. apply bind_ok in E1 as (c & _ & [= <-]). done.
  - destruct (em_contains m e'); [|by injection E as <- <-]. apply bind_ok in E as (l' & _ & E).
    injection E as <- <-. by destruct (rg_valid d l').
Qed.
Lemma remap_exec ops : ∀ d m,
  (∀ o, o ∈ ops → ∃ e v, comp_op o = Some (e, v) ∧ is_Some (em_map m !! e) ∧ val_ok (refd d m) v) →
  ∃ ops', remap_ops m ops = Ok ops' ∧
    exec (d, m) ops = (d' ← exec_local merge empty_ty d ops'; Ok (d', m)).
Proof.
  induction ops as [|o ops IH]; intros d m H; [by exists []|].
  destruct (H o) as (e & v & C & [l El] & Hv); [left|].
  assert (∃ o', op_remap m o = Ok o' ∧ op1 (d, m) o = (d' ← op_exec_local merge empty_ty d o'; Ok (d', m)))
    as (o' & Er & Eo).
  { assert (Hc : em_contains m e = true) by (apply em_contains_true; by eexists).
    destruct o as [e'|e'|e' l'|t e' v'|t e' v'|t e']; try done; injection C as -> Cv;
      cbn [op_remap op_exec]; unfold em_at; rewrite El, Hc; cbn [opt_res mbind res_bind].
    - subst v'. eexists. split; [done|]. cbn [op_exec_local]. rewrite val_child_nv by done.
      by destruct (negb (rg_valid d l) || rg_has d t l).
    - subst v'. eexists. split; [done|]. cbn [op_exec_local]. destruct (empty_ty t); [done|].
      rewrite val_child_nv by done. by destruct (negb (rg_valid d l) || negb (rg_has d t l)).
    - eexists. split; [done|]. done. }
  destruct (IH d m) as (ops0 & Er0 & _); [intros o2 Ho2; apply H; by right|].
  destruct (op1 (d, m) o) as [[d1 m1]| | |] eqn:E1.
  - destruct (comp_op_alive _ _ _ _ _ _ _ C E1) as [Ea ->].
    destruct (IH d1 m) as (ops' & Er' & Ee).
    { intros o2 Ho2. destruct (H o2) as (e2 & v2 & C2 & M2 & V2); [by right|]. exists e2, v2. split_and!; [done..|].
      eapply val_ok_mono; [|exact V2]. intros r (x & ? & ?). exists x. by rewrite Ea. }
    exists (o' :: ops'). cbn [remap_ops exec_ops exec_local]. rewrite Er, Er'. split; [done|].
    rewrite E1. cbn [mbind res_bind]. destruct (op_exec_local merge empty_ty d o') as [d1'| | |]; [|done..].
    cbn [mbind res_bind] in Eo |- *. injection Eo as ->. exact Ee.
  - exists (o' :: ops0). cbn [remap_ops exec_ops exec_local]. rewrite Er, Er0, E1. split; [done|].
    cbn [mbind res_bind]. destruct (op_exec_local merge empty_ty d o'); done.
  - exists (o' :: ops0). cbn [remap_ops exec_ops exec_local]. rewrite Er, Er0, E1. split; [done|].
    cbn [mbind res_bind]. destruct (op_exec_local merge empty_ty d o'); done.
  - exists (o' :: ops0). cbn [remap_ops exec_ops exec_local]. rewrite Er, Er0, E1. split; [done|].
    cbn [mbind res_bind]. destruct (op_exec_local merge empty_ty d o'); done.
Qed.

(** ** The reply with the new mappings *)
Lemma exec_mappings ps : ∀ r m,
  (∀ e l, em_map m !! e = Some l ↔ em_local m !! l = Some e) →
  NoDup ps.*1 → NoDup ps.*2 →
  (∀ p, p ∈ ps → em_map m !! p.1 = None ∧ em_local m !! p.2 = None) →
  ∃ m', exec (r, m) ((λ p, OMapEntity p.1 p.2) <$> ps) = Ok (r, m') ∧
    ∀ e l, em_map m' !! e = Some l ↔ em_map m !! e = Some l ∨ ((e, l) ∈ ps ∧ l ∈ rg_alive r).
Proof.
  induction ps as [|[e l] ps IH]; intros r m B N1 N2 H.
  - exists m. split; [done|]. intros e l. split; [by left|]. intros [?|[H' _]]; [done|by apply elem_of_nil in H'].
  - rewrite !fmap_cons in N1, N2. apply NoDup_cons in N1 as [N1 N1'], N2 as [N2 N2']. cbn in N1, N2.
    destruct (H (e, l)) as [He Hl]; [left|]. cbn in He, Hl.
    rewrite fmap_cons. cbn [exec_ops op_exec fst snd].
    destruct (rg_valid r l) eqn:V.
    + rewrite (proj2 (em_contains_false m e) He). unfold em_insert.
      rewrite !bool_decide_true by done. cbn [assert_ mbind res_bind].
      destruct (IH r (EMap (<[e:=l]> (em_map m)) (<[l:=e]> (em_local m)))) as (m' & E & Q); [|done|done|..].
      { intros e' l'. cbn. rewrite !lookup_insert_Some, B. split; intros [[<- <-]|[Hne Hx]]; auto.
        - right. split; [|done]. intros <-. congruence.
        - right. split; [|done]. intros <-. apply B in Hx. congruence. }
      { intros [e' l'] Hp. destruct (H (e', l')) as [H1 H2]; [by right|]. cbn in *.
        assert (e' ≠ e) by (intros ->; apply N1; by apply (elem_of_list_fmap_1 fst) in Hp).
        assert (l' ≠ l) by (intros ->; apply N2; by apply (elem_of_list_fmap_1 snd) in Hp).
        by rewrite !lookup_insert_ne by done. }
      exists m'. split; [exact E|]. intros e' l'. rewrite Q. cbn. rewrite lookup_insert_Some, elem_of_cons.
      apply rg_valid_true in V. split.
      * intros [[[<- <-]|[_ ?]]|[? ?]]; [right; split; [by left|done]|by left|right; split; [by right|done]].
      * intros [Hm|[[[= -> ->]|Hp] Hal]]; [|by left; left|by right].
        left. right. split; [|done]. intros <-. congruence.
    + destruct (IH r m B N1' N2') as (m' & E & Q).
      { intros p Hp. apply H. by right. }
      exists m'. split; [exact E|]. intros e' l'. rewrite Q, elem_of_cons. apply rg_valid_false in V. split.
      * intros [?|[? ?]]; [by left|right; split; [by right|done]].
      * intros [?|[[[= -> ->]|?] ?]]; [by left|done|by right].
Qed.
End more.

(** ** Operation storage *)
Record st_inv (s : store) : Prop := {
  so_blocks : st_blocks s ≠ [];
  so_in : ∀ i b off sz, st_ops s !! i = Some (b, off, sz) →
            ∃ blk, st_blocks s !! b = Some blk ∧ off + sz ≤ blk;
  so_last : ∀ i b off sz, st_ops s !! i = Some (b, off, sz) →
            b < length (st_blocks s) - 1 ∨ (b = length (st_blocks s) - 1 ∧ off + sz ≤ st_index s);
  so_disj : ∀ i j b off sz off' sz', i < j → st_ops s !! i = Some (b, off, sz) →
            st_ops s !! j = Some (b, off', sz') → off + sz ≤ off'
}.
Lemma lookup_snoc_cases {A} (l : list A) x i y :
  (l ++ [x]) !! i = Some y → (i < length l ∧ l !! i = Some y) ∨ (i = length l ∧ y = x).
Proof.
  intros H. destruct (decide (i < length l)) as [Hi|Hi].
  - left. by rewrite lookup_app_l in H by done.
  - right. rewrite lookup_app_r in H by lia. destruct (i - length l) as [|k] eqn:E; [|by destruct k].
    cbn in H. split; [lia|congruence].
Qed.
Lemma make_op_inv s sz : st_inv s → sz ≤ max_block →
  ∃ s', make_op s sz = Ok s' ∧ st_inv s' ∧ (st_ops s').*2 = (st_ops s).*2 ++ [sz].
Proof.
  intros I Hs. unfold make_op. rewrite (proj2 (Nat.leb_le sz max_block) Hs). cbn [require_ mbind res_bind].
  destruct (st_blocks s) as [|b0 bs0] eqn:Eb; [by apply so_blocks in I|]. rewrite <- Eb.
  destruct (last (st_blocks s)) as [back|] eqn:El; [|rewrite Eb in El; apply last_None in El; done].
  cbn [opt_res mbind res_bind]. eexists. split; [done|].
  destruct (back <? st_index s + sz) eqn:Eq; cbn [st_blocks st_index st_ops].
  - rewrite app_length. cbn [length]. replace (length (st_blocks s) + 1 - 1) with (length (st_blocks s)) by lia.
    split; [|by rewrite fmap_app]. constructor; cbn [st_blocks st_index st_ops].
    + by destruct (st_blocks s).
    + intros i b off sz' [[_ H]|[_ [= -> -> ->]]]%lookup_snoc_cases.
      * destruct (so_in _ I _ _ _ _ H) as (blk & Hb & Hle). exists blk. split; [by apply lookup_app_l_Some|done].
      * exists (Nat.min (sz * block_unit) max_block). split; [by rewrite lookup_app_r, Nat.sub_diag by lia|].
        unfold block_unit. lia.
    + rewrite app_length. cbn [length]. intros i b off sz' [[_ H]|[_ [= -> -> ->]]]%lookup_snoc_cases; [|lia].
      destruct (so_in _ I _ _ _ _ H) as (blk & Hb%lookup_lt_Some & _). lia.
    + intros i j b off sz1 off' sz2 Hij [[Hi H]|[Hi _]]%lookup_snoc_cases H2;
        apply lookup_snoc_cases in H2 as [[Hj H2]|[Hj H2]]; try lia.
      * eapply so_disj; [exact I|exact Hij|done|done].
      * injection H2 as -> -> ->. destruct (so_in _ I _ _ _ _ H) as (blk & Hb%lookup_lt_Some & _). lia.
  - apply Nat.ltb_ge in Eq. split; [|by rewrite fmap_app].
    assert (Hlast : st_blocks s !! (length (st_blocks s) - 1) = Some back).
    { rewrite last_lookup in El. by replace (length (st_blocks s) - 1) with (pred (length (st_blocks s))) by lia. }
    constructor; cbn [st_blocks st_index st_ops].
    + apply I.
    + intros i b off sz' [[_ H]|[_ [= -> -> ->]]]%lookup_snoc_cases; [by eapply so_in|]. by exists back.
    + intros i b off sz' [[_ H]|[_ [= -> -> ->]]]%lookup_snoc_cases; [|lia].
      destruct (so_last _ I _ _ _ _ H) as [?|[? ?]]; [by left|right; lia].
    + intros i j b off sz1 off' sz2 Hij [[Hi H]|[Hi _]]%lookup_snoc_cases H2;
        apply lookup_snoc_cases in H2 as [[Hj H2]|[Hj H2]]; try lia.
      * eapply so_disj; [exact I|exact Hij|done|done].
      * injection H2 as -> -> ->. destruct (so_last _ I _ _ _ _ H) as [?|[_ ?]]; [lia|done].
Qed.
Lemma st_new_inv : st_inv st_new.
Proof. by constructor. Qed.
Lemma make_ops sizes : ∀ s, st_inv s → Forall (λ n, n ≤ max_block) sizes →
  ∃ s', rrun make_op s sizes = Ok s' ∧ st_inv s' ∧ (st_ops s').*2 = (st_ops s).*2 ++ sizes.
Proof.
  induction sizes as [|n sizes IH]; intros s I F.
  - exists s. by rewrite app_nil_r.
  - apply Forall_cons in F as [Fn F]. destruct (make_op_inv s n I Fn) as (s1 & E1 & I1 & Q1).
    destruct (IH s1 I1 F) as (s2 & E2 & I2 & Q2). exists s2. cbn [rrun]. rewrite E1. split_and!; [done..|].
    rewrite Q2, Q1, <- app_assoc. done.
Qed.
(** Offsets keep every alignment the sizes have. *)
Definition al_inv (a : nat) (s : store) : Prop :=
  (a | st_index s) ∧ Forall (λ o : nat * nat * nat, (a | o.1.2)) (st_ops s).
Lemma make_op_al a s sz s' : al_inv a s → (a | sz) → make_op s sz = Ok s' → al_inv a s'.
Proof.
  intros [H1 H2] Hs. unfold make_op. intros E. apply bind_ok in E as (_ & _ & E).
  apply bind_ok in E as (back & _ & [= <-]). destruct (back <? st_index s + sz); split; cbn [st_index st_ops].
  - cbn; done.
  - apply Forall_app. split; [done|]. constructor; [cbn; apply Nat.divide_0_r|constructor].
  - by apply Nat.divide_add_r.
  - apply Forall_app. split; [done|]. constructor; [done|constructor].
Qed.
Lemma make_ops_al a sizes : ∀ s s', al_inv a s → Forall (λ n, (a | n)) sizes →
  rrun make_op s sizes = Ok s' → al_inv a s'.
Proof.
  induction sizes as [|n sizes IH]; intros s s' I F E; cbn [rrun] in E; [by injection E as <-|].
  apply Forall_cons in F as [Fn F]. apply bind_ok in E as (s1 & E1 & E2). eapply IH; [|done|done].
  by eapply make_op_al.
Qed.

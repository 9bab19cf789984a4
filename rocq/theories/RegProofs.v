(** Proofs about replication (RegModel.v). *)
From Verif Require Import Outcome MapModel MapProofs RegModel RegSpec.

Lemma em_contains_true m e : em_contains m e = true ↔ is_Some (em_map m !! e).
Proof. unfold em_contains. by rewrite bool_decide_eq_true. Qed.
Lemma em_contains_false m e : em_contains m e = false ↔ em_map m !! e = None.
Proof. unfold em_contains. rewrite bool_decide_eq_false. by rewrite eq_None_not_Some. Qed.
Lemma rg_valid_true r e : rg_valid r e = true ↔ e ∈ rg_alive r.
Proof. unfold rg_valid. by rewrite bool_decide_eq_true. Qed.
Lemma rg_valid_false r e : rg_valid r e = false ↔ e ∉ rg_alive r.
Proof. unfold rg_valid. by rewrite bool_decide_eq_false. Qed.
Lemma rg_has_true r t e : rg_has r t e = true ↔ is_Some (rg_comp r !! (t, e)).
Proof. unfold rg_has. by rewrite bool_decide_eq_true. Qed.
Lemma rg_has_false r t e : rg_has r t e = false ↔ rg_comp r !! (t, e) = None.
Proof. unfold rg_has. rewrite bool_decide_eq_false. by rewrite eq_None_not_Some. Qed.

Lemma map_ent_eq m o : map_ent m o = o ≫= λ r, em_map m !! r.
Proof.
  destruct o as [r|]; [|done]. simpl. destruct (em_contains m r) eqn:E; [done|].
  by apply em_contains_false in E.
Qed.

(** ** Translation of values *)
Lemma filter_somes (rs : list nat) : filter is_Some (Some <$> rs) = Some <$> rs.
Proof.
  induction rs as [|r rs IH]; [done|]. rewrite fmap_cons, filter_cons_True by done. by rewrite IH.
Qed.
Lemma filter_nones n : filter is_Some (replicate n (@None nat)) = [].
Proof.
  induction n as [|n IH]; [done|]. cbn [replicate]. rewrite filter_cons_False; [done|]. by intros [? ?].
Qed.
Lemma rm_null_arr_ok (rs : list nat) n :
  rm_null_arr ((Some <$> rs) ++ replicate n None) = (Some <$> rs) ++ replicate n None.
Proof.
  unfold rm_null_arr. rewrite filter_app, filter_somes, filter_nones, app_nil_r. f_equal.
  by rewrite drop_app_alt.
Qed.
Lemma rm_null_seq_ok (rs : list nat) : rm_null_seq (Some <$> rs) = Some <$> rs.
Proof. apply filter_somes. Qed.

(** A reference that has a live counterpart. *)
Definition refd (d : reg) (m : emap) (r : nat) : Prop := ∃ l, em_map m !! r = Some l ∧ l ∈ rg_alive d.

Lemma refs_list d m (rs : list nat) :
  Forall (refd d m) rs →
  ∃ ls, map_ent m <$> (Some <$> rs) = Some <$> ls ∧ inval_ent d <$> (Some <$> ls) = Some <$> ls ∧
        Forall2 (λ r l, em_map m !! r = Some l) rs ls.
Proof.
  induction 1 as [|r rs (l & Hl & Ha) _ (ls & E1 & E2 & F)].
  - by exists [].
  - exists (l :: ls). rewrite !fmap_cons, E1, E2, map_ent_eq. simpl. rewrite Hl.
    apply rg_valid_true in Ha. rewrite Ha. split_and!; [done|done|]. by constructor.
Qed.
Lemma match_somes (f : gmap nat nat) (rs ls : list nat) :
  Forall2 (λ r l, f !! r = Some l) rs ls → Forall2 (ref_match f) (Some <$> rs) (Some <$> ls).
Proof.
  induction 1 as [|r l rs ls Hl _ IH]; [constructor|]. rewrite !fmap_cons. constructor; [|done].
  simpl. intros l' Hl'. congruence.
Qed.
Lemma match_nones f n : Forall2 (ref_match f) (replicate n None) (replicate n None).
Proof. induction n; simpl; constructor; [done|done]. Qed.

Lemma mem_child d m x : mem_ok (refd d m) x → mem_match (em_map m) x (inval_mem d (map_mem m x)).
Proof.
  destruct x as [n|o|l|l|a]; cbn [mem_ok map_mem inval_mem mem_match].
  - done.
  - destruct o as [r|]; [|done]. simpl. intros (l & Hl & Ha).
    replace (em_contains m r) with true by (symmetry; apply em_contains_true; by eexists).
    rewrite Hl. simpl. apply rg_valid_true in Ha. rewrite Ha. intros l' Hl'. congruence.
  - intros (rs & n & -> & F). destruct (refs_list _ _ _ F) as (ls & E1 & E2 & F2).
    rewrite fmap_app, E1, fmap_replicate. simpl. rewrite rm_null_arr_ok, fmap_app, E2, fmap_replicate.
    simpl. rewrite rm_null_arr_ok. apply Forall2_app; [by apply match_somes|apply match_nones].
  - intros (rs & -> & F). destruct (refs_list _ _ _ F) as (ls & E1 & E2 & F2).
    rewrite E1, rm_null_seq_ok, E2, rm_null_seq_ok. by apply match_somes.
  - intros F k. rewrite lookup_omap. destruct (a !! k) as [o|] eqn:E; [|done]. cbn [mbind option_bind].
    destruct (F k o E) as (r & -> & l & Hl & Ha). rewrite map_ent_eq. simpl. rewrite Hl. simpl.
    intros l' Hl'. congruence.
Qed.
Lemma val_child d m v : val_ok (refd d m) v → val_match (em_map m) v (map_child d m v).
Proof.
  intros F. unfold map_child, val_match. induction F as [|x v Hx _ IH]; [constructor|].
  rewrite !fmap_cons. constructor; [by apply mem_child|done].
Qed.

Lemma mem_ok_mono (P Q : nat → Prop) x : (∀ r, P r → Q r) → mem_ok P x → mem_ok Q x.
Proof.
  intros HPQ. destruct x as [n|o|l|l|a]; cbn [mem_ok].
  - done.
  - destruct o; simpl; auto.
  - intros (rs & n & -> & F). exists rs, n. split; [done|]. by eapply Forall_impl.
  - intros (rs & -> & F). exists rs. split; [done|]. by eapply Forall_impl.
  - intros F k o E. destruct (F k o E) as (r & -> & H). eauto.
Qed.
Lemma val_ok_mono (P Q : nat → Prop) v : (∀ r, P r → Q r) → val_ok P v → val_ok Q v.
Proof. intros H F. eapply Forall_impl; [exact F|]. intros x. by apply mem_ok_mono. Qed.

(** A match survives a change of the renaming that agrees on the references
    of the source value or forgets them. *)
Lemma ref_match_change (P : nat → Prop) (f g : gmap nat nat) a b :
  (∀ r l, P r → g !! r = Some l → f !! r = Some l) → ref_ok P a → ref_match f a b → ref_match g a b.
Proof. destruct a as [r|]; simpl; [|done]. intros H Hr Hm l Hl. apply Hm, H; done. Qed.
Lemma refs_match_change (P : nat → Prop) (f g : gmap nat nat) l l' :
  (∀ r x, P r → g !! r = Some x → f !! r = Some x) → Forall (ref_ok P) l →
  Forall2 (ref_match f) l l' → Forall2 (ref_match g) l l'.
Proof.
  intros H F F2. induction F2 as [|a b l l' Hab _ IH]; [constructor|].
  apply Forall_cons in F as [Fa Fl]. constructor; [by eapply ref_match_change|auto].
Qed.
Lemma somes_ok (P : nat → Prop) (rs : list nat) : Forall P rs → Forall (ref_ok P) (Some <$> rs).
Proof. induction 1; simpl; constructor; done. Qed.
Lemma nones_ok (P : nat → Prop) n : Forall (ref_ok P) (replicate n None).
Proof. induction n; simpl; constructor; done. Qed.
Lemma mem_match_change (P : nat → Prop) (f g : gmap nat nat) x y :
  (∀ r l, P r → g !! r = Some l → f !! r = Some l) → mem_ok P x → mem_match f x y → mem_match g x y.
Proof.
  intros H. destruct x as [n|o|l|l|a], y as [n'|o'|l'|l'|a']; cbn [mem_ok mem_match]; try done.
  - by apply ref_match_change.
  - intros (rs & n & -> & F). apply refs_match_change with (P := P); [done|].
    apply Forall_app. split; [by apply somes_ok|apply nones_ok].
  - intros (rs & -> & F). apply refs_match_change with (P := P); [done|]. by apply somes_ok.
  - intros F M k. specialize (M k). destruct (a !! k) as [o|] eqn:E, (a' !! k) as [o'|]; try done.
    destruct (F k o E) as (r & -> & Hr). eapply ref_match_change; [done| |done]. done.
Qed.
Lemma val_match_change (P : nat → Prop) (f g : gmap nat nat) v w :
  (∀ r l, P r → g !! r = Some l → f !! r = Some l) → val_ok P v → val_match f v w → val_match g v w.
Proof.
  intros H F M. unfold val_match in *. induction M as [|x y v w Hxy _ IH]; [constructor|].
  apply Forall_cons in F as [Fx Fv]. constructor; [by eapply mem_match_change|auto].
Qed.

(** ** Execution *)
Section exec.
Variable merge : nat → list mem → list mem → list mem.
Variable empty_ty : nat → bool.
Variable shared : list nat.
Local Notation exec := (exec_ops merge empty_ty).
Local Notation op1 := (op_exec merge empty_ty).

Lemma exec_app s o1 o2 : exec s (o1 ++ o2) = (s' ← exec s o1; exec s' o2).
Proof.
  revert s. induction o1 as [|o o1 IH]; intros s; [done|]. cbn [app exec_ops].
  destruct (op1 s o); [|done..]. cbn [mbind res_bind]. apply IH.
Qed.

(** Well-formed destination: the two sides of the entity map agree, every
    entity known was issued, components sit on live entities. *)
Record dwf (d : reg) (m : emap) : Prop := {
  dw_bij : ∀ e l, em_map m !! e = Some l ↔ em_local m !! l = Some e;
  dw_issued : ∀ l, l ∈ rg_alive d → l < rg_next d;
  dw_known : ∀ l e, em_local m !! l = Some e → l < rg_next d;
  dw_comp : ∀ t l v, rg_comp d !! (t, l) = Some v → l ∈ rg_alive d
}.

(** Without entity mapping operations, execution never fails and keeps the
    destination well formed. *)
Definition not_map (o : opn) : Prop := match o with OMapEntity _ _ => False | _ => True end.
Lemma dwf_destroy d m e l :
  dwf d m → em_map m !! e = Some l →
  dwf (if rg_valid d l then rg_destroy d l else d) (EMap (delete e (em_map m)) (delete l (em_local m))).
Proof.
  intros W E. pose proof (proj1 (dw_bij _ _ W e l) E) as El.
  assert (B : ∀ e' l', delete e (em_map m) !! e' = Some l' ↔ delete l (em_local m) !! l' = Some e').
  { intros e' l'. rewrite !lookup_delete_Some. rewrite (dw_bij _ _ W).
    split; intros [Hne H]; (split; [|done]); intros ->.
    - apply Hne. congruence.
    - apply Hne. apply (dw_bij _ _ W) in H. congruence. }
  destruct (rg_valid d l); constructor; simpl; try done.
  - intros l' [Hl _]%elem_of_difference. by eapply dw_issued.
  - intros l' e' [_ H]%lookup_delete_Some. by eapply dw_known.
  - intros t l' v [H Hne]%map_filter_lookup_Some. simpl in Hne. apply elem_of_difference.
    split; [by eapply dw_comp|set_solver].
  - by eapply dw_issued.
  - intros l' e' [_ H]%lookup_delete_Some. by eapply dw_known.
  - by eapply dw_comp.
Qed.
Lemma op_exec_ok d m o : dwf d m → not_map o → ∃ d' m', op1 (d, m) o = Ok (d', m') ∧ dwf d' m'.
Proof.
  intros W N. destruct o as [e|e|e l|t e v|t e v|t e]; [..|]; cbn [op_exec].
  - destruct (em_contains m e) eqn:C; [by eexists _, _|]. apply em_contains_false in C.
    cbn [rg_create]. assert (em_local m !! rg_next d = None) as Hn.
    { destruct (em_local m !! rg_next d) eqn:E; [|done]. apply (dw_known _ _ W) in E. lia. }
    unfold em_insert. rewrite !bool_decide_true by done. cbn. eexists _, _. split; [done|].
    constructor; cbn.
    + intros e' l'. rewrite !lookup_insert_Some, (dw_bij _ _ W). split; intros [[<- <-]|[Hne H]]; auto.
      * right. split; [|done]. intros <-. congruence.
      * right. split; [|done]. intros ->. apply (dw_bij _ _ W) in H. congruence.
    + intros l [->%elem_of_singleton|H]%elem_of_union; [lia|]. apply (dw_issued _ _ W) in H. lia.
    + intros l e' [[<- ->]|[_ H]]%lookup_insert_Some; [lia|]. apply (dw_known _ _ W) in H. lia.
    + intros t l v H. apply elem_of_union_r. by eapply dw_comp.
  - destruct (em_contains m e) eqn:C; [|by eexists _, _]. apply em_contains_true in C as [l El].
    unfold em_at, em_erase. rewrite El. cbn. eexists _, _. split; [done|]. by apply dwf_destroy.
  - done.
  - destruct (em_contains m e) eqn:C; [|by eexists _, _]. apply em_contains_true in C as [l El].
    unfold em_at. rewrite El. cbn. destruct (rg_valid d l) eqn:V, (rg_has d t l) eqn:H; cbn; [by eexists _, _| |by eexists _, _..].
    unfold rg_emplace. rewrite V, H. cbn. eexists _, _. split; [done|]. apply rg_valid_true in V.
    constructor; cbn; [apply W..|]. intros t' l' w [[[= <- <-] _]|[_ H']]%lookup_insert_Some; [done|by eapply dw_comp].
  - destruct (empty_ty t); [by eexists _, _|].
    destruct (em_contains m e) eqn:C; [|by eexists _, _]. apply em_contains_true in C as [l El].
    unfold em_at. rewrite El. cbn. destruct (rg_valid d l) eqn:V, (rg_has d t l) eqn:H; cbn; [|by eexists _, _..].
    apply rg_has_true in H as [w Hw]. unfold rg_patch. rewrite Hw. cbn. eexists _, _. split; [done|]. apply rg_valid_true in V.
    constructor; cbn; [apply W..|]. intros t' l' w' [[[= <- <-] _]|[_ H']]%lookup_insert_Some; [done|by eapply dw_comp].
  - destruct (em_contains m e) eqn:C; [|by eexists _, _]. apply em_contains_true in C as [l El].
    unfold em_at. rewrite El. cbn. eexists _, _. split; [done|]. destruct (rg_valid d l); [|done].
    constructor; cbn; [apply W..|]. intros t' l' w' [_ H']%lookup_delete_Some. by eapply dw_comp.
Qed.
Lemma exec_ok ops : ∀ d m, dwf d m → Forall not_map ops → ∃ d' m', exec (d, m) ops = Ok (d', m') ∧ dwf d' m'.
Proof.
  induction ops as [|o ops IH]; intros d m W F; [by eexists _, _|]. apply Forall_cons in F as [Fo F].
  destruct (op_exec_ok d m o W Fo) as (d1 & m1 & E & W1). destruct (IH d1 m1 W1 F) as (d2 & m2 & E2 & W2).
  eexists _, _. split; [|done]. cbn [exec_ops]. rewrite E. exact E2.
Qed.
End exec.

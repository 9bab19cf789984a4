(** What [prepare] reads from the impulse fields of a constraint and what
    [store_applied_impulses] writes back. *)
From Verif Require Import Outcome RowModel JointModel RowSpec.

Section lens.
Context {N : num}.
Notation T := (nt N).

(** The fields that have a row, in row order. *)
Definition dof_slots (d : dof_cfg N) (i : nat) : list nat :=
  when (d_enabled d) [i] ++ when (d_bump d) [i + 1]
  ++ when (d_springy d) [i + 2] ++ when (d_frictional d) [i + 3].
Definition slots_of (c : config N) (sp : bool) : list nat :=
  match c with
  | KGravity | KDistance => [0]
  | KSoft _ _ _ => [0; 1]
  | KHinge h =>
      [0; 1; 2; 3; 4] ++ when (h_has_limit h) [5]
      ++ when (h_has_limit h && (h_has_bump h
           && nonzero (bump (h_min h) (h_max h) (h_bs_angle h) (h_angle h)))) [6]
      ++ when (h_has_spring h) [7] ++ when (h_has_torque h) [8]
  | KGeneric l0 l1 l2 a0 a1 a2 =>
      dof_slots l0 0 ++ dof_slots l1 4 ++ dof_slots l2 8
      ++ dof_slots a0 12 ++ dof_slots a1 16 ++ dof_slots a2 20
  | KCv v =>
      [0; 1; 2; 3] ++ when (v_has_bump v) [4] ++ when (v_has_spring v) [5]
      ++ when (v_has_tfric v) [6] ++ when (v_has_bfric v) [7] ++ when (v_has_bend v) [8]
  | KCone bss bsl => [0] ++ when ((n0 <? bss) && (n0 <? bsl)) [1]
  | KPoint t => [0; 1; 2] ++ when ((n0 <? t) && sp) [3]
  | KContact _ => [0; 1; 2]
  | KExtras _ x => [0; 1; 2] ++ when (n0 <? x_roll x) [3; 4] ++ when (n0 <? x_spin x) [5]
  end.

Lemma row_values_app (a b : list (req N)) :
  row_values (a ++ b) = row_values a ++ row_values b.
Proof. unfold row_values. by rewrite map_app, concat_app. Qed.

Lemma limit_row_values g imps i lo up x :
  row_values [limit_row (N:=N) g imps i lo up x] = [fld imps i].
Proof. unfold limit_row. by destruct (_ <? _). Qed.

Lemma row_values_cons (q : req N) qs : row_values (q :: qs) = req_values q ++ row_values qs.
Proof. done. Qed.
Lemma row_values_when (b : bool) (qs : list (req N)) :
  row_values (when b qs) = when b (row_values qs).
Proof. by destruct b. Qed.
Lemma map_when {A B} (f : A → B) (b : bool) l : map f (when b l) = when b (map f l).
Proof. by destruct b. Qed.

Lemma prep_dof_values d i imps dt g qs :
  prep_dof d i imps dt g = Ok qs →
  row_values qs = map (fld imps) (dof_slots d i).
Proof.
  unfold prep_dof, dof_slots. intros H.
  apply bind_ok in H as ([] & _ & H). injection H as <-.
  rewrite !row_values_app, !row_values_when, !map_app, !map_when.
  f_equal. destruct (d_nonzero d); [by rewrite limit_row_values | done].
Qed.

Lemma prep_contact_values (c : contact_cfg N) imps g A B q :
  prep_contact c imps g A B = Ok q →
  q_imp q = fld imps 0 ∧ q_roll q = None ∧ q_spin q = None
  ∧ q_fric q = Some (Fric (fric_dir g imps 1 A B) (fric_dir g imps 2 A B) (o_mu c) 0)
  ∧ q_lo q = n0 ∧ q_up q = nlarge.
Proof.
  unfold prep_contact. intros H. apply bind_ok in H as ([] & _ & H).
  injection H as <-. done.
Qed.

Lemma prep_extras_inv (c : contact_cfg N) x imps dt g A B q :
  prep_extras c x imps dt g A B = Ok q →
  q_imp q = fld imps 0
  ∧ q_fric q = Some (Fric (fric_dir g imps 1 A B) (fric_dir g imps 2 A B) (o_mu c) 0)
  ∧ q_roll q = (if n0 <? x_roll x
                then Some (Fric (roll_dir g imps 3 A B) (roll_dir g imps 4 A B) (x_roll x) 0)
                else None)
  ∧ (if n0 <? x_spin x
     then ∃ p, q_spin q = Some p ∧ p_imp p = fld imps 5 ∧ p_mu p = x_spin x
     else q_spin q = None)
  ∧ q_lo q = n0
  ∧ q_up q = (if (o_dist c <? n0) && (x_stiff x <? nlarge)
              then fmax (nneg (o_dist c) ⊙ x_stiff x ⊘ x_points x
                         ⊕ nneg (g_s g 0) ⊙ x_damp x ⊘ x_points x) n0 ⊙ dt
              else nlarge).
Proof.
  unfold prep_extras. intros H. apply bind_ok in H as (q1 & Hq & H).
  apply prep_contact_values in Hq as (H1 & H2 & H3 & H4 & H5 & H6).
  apply bind_ok in H as (sp & Hs & H). injection H as <-. simpl.
  split; [done|]. split; [done|]. split; [done|].
  rewrite H6. split; [|done].
  destruct (n0 <? x_spin x).
  - apply bind_ok in Hs as ([] & _ & Hs). injection Hs as <-. by eexists.
  - by injection Hs as <-.
Qed.

Lemma pair_inv {A B} (a a' : A) (b b' : B) : (a, b) = (a', b') → a = a' ∧ b = b'.
Proof. by intros [= -> ->]. Qed.

Lemma prepare_values c imps dt g A B c' qs :
  prepare c imps dt g A B = Ok (c', qs) →
  row_values qs = map (fld imps) (slots_of c' (g_spin g)).
Proof.
  destruct c; cbn -[prep_hinge prep_cv prep_generic slots_of prep_contact prep_extras]; intros H.
  - by injection H as <- <-.
  - by injection H as <- <-.
  - by injection H as <- <-.
  - destruct (prep_hinge h imps dt g) as [h' qs'] eqn:E. injection H as <- <-.
    unfold prep_hinge in E. apply pair_inv in E as [<- <-].
    unfold slots_of.
    set (h' := if h_has_limit h || h_has_spring h then _ else h).
    assert (h_has_limit h' = h_has_limit h ∧ h_has_spring h' = h_has_spring h
            ∧ h_has_torque h' = h_has_torque h) as (E1 & E2 & E3).
    { unfold h'. by destruct (_ || _). }
    rewrite E1, E2, E3. clearbody h'.
    rewrite !row_values_app, !row_values_when, !map_app, !map_when.
    f_equal.
    destruct (h_has_limit h); [|done]. cbn [when andb].
    rewrite row_values_cons.
    change (req_values ?x) with (row_values [x]) at 1 || idtac.
    assert (∀ q : req N, req_values q = row_values [q]) as Hq.
    { intros q. unfold row_values. simpl. by rewrite app_nil_r. }
    rewrite Hq, limit_row_values, row_values_when. simpl.
    by destruct (h_has_bump h' && _).
  - apply bind_ok in H as (qs' & H & E). injection E as <- <-.
    unfold prep_generic in H.
    apply bind_ok in H as (r0 & H0 & H). apply bind_ok in H as (r1 & H1 & H).
    apply bind_ok in H as (r2 & H2 & H). apply bind_ok in H as (r3 & H3 & H).
    apply bind_ok in H as (r4 & H4 & H). apply bind_ok in H as (r5 & H5 & H).
    injection H as <-. unfold slots_of.
    rewrite !row_values_app, !map_app.
    rewrite (prep_dof_values _ _ _ _ _ _ H0), (prep_dof_values _ _ _ _ _ _ H1),
      (prep_dof_values _ _ _ _ _ _ H2), (prep_dof_values _ _ _ _ _ _ H3),
      (prep_dof_values _ _ _ _ _ _ H4), (prep_dof_values _ _ _ _ _ _ H5). done.
  - destruct (prep_cv c imps dt g) as [v' qs'] eqn:E. injection H as <- <-.
    unfold prep_cv in E. apply pair_inv in E as [<- <-]. unfold slots_of.
    set (v' := if v_has_limit c then _ else c).
    rewrite !row_values_app, !row_values_when, !map_app, !map_when.
    assert (∀ q : req N, row_values [q] = req_values q) as Hq.
    { intros q. unfold row_values. simpl. by rewrite app_nil_r. }
    f_equal. rewrite !row_values_cons. rewrite <- !Hq.
    destruct (v_has_limit c); [by rewrite limit_row_values|done].
  - injection H as <- <-. unfold prep_cone, slots_of.
    rewrite map_app, map_when, row_values_cons, row_values_when. done.
  - injection H as <- <-. unfold slots_of. rewrite map_app, map_when.
    by destruct ((n0 <? torque) && g_spin g).
  - apply bind_ok in H as (q & Hq & E). injection E as <- <-.
    apply prep_contact_values in Hq as (H1 & H2 & H3 & H4 & _).
    unfold row_values, req_values. simpl. by rewrite H1, H2, H3, H4.
  - apply bind_ok in H as (q & Hq & E). injection E as <- <-.
    apply prep_extras_inv in Hq as (H1 & H2 & H3 & H4 & _).
    unfold row_values, req_values. simpl. rewrite app_nil_r, H1, H2, H3. simpl.
    destruct (n0 <? x_roll x), (n0 <? x_spin x); simpl.
    + destruct H4 as (p & -> & <- & _). done.
    + by rewrite H4.
    + destruct H4 as (p & -> & <- & _). done.
    + by rewrite H4.
Qed.

(** Writing a list of values into a list of fields. *)
Fixpoint puts (sl : list nat) (st : list T * list T) : res (list T * list T) :=
  match sl with
  | [] => Ok st
  | i :: sl => st ← put i st; puts sl st
  end.

Lemma puts_app a b st : puts (a ++ b) st = (st ← puts a st; puts b st).
Proof.
  revert st. induction a as [|i a IH]; intros st; simpl; [done|].
  destruct (put i st); simpl; [apply IH|done|done|done].
Qed.
Lemma puts_when b i st : puts (when b [i]) st = put_if b i st.
Proof. destruct b; simpl; [|done]. by destruct (put i st). Qed.
Lemma bind_assoc {A B C} (m : res A) (f : A → res B) (h : B → res C) :
  mbind h (mbind f m) = mbind (λ a, mbind h (f a)) m.
Proof. by destruct m. Qed.
Lemma bind_ext {A B} (m : res A) (f h : A → res B) :
  (∀ a, f a = h a) → mbind f m = mbind h m.
Proof. intros E. destruct m; simpl; auto. Qed.

Lemma store_dof_puts d i st : store_dof d i st = puts (dof_slots d i) st.
Proof.
  unfold store_dof, dof_slots.
  rewrite puts_app, puts_when. apply bind_ext; intros ?.
  rewrite puts_app, puts_when. apply bind_ext; intros ?.
  rewrite puts_app, puts_when. apply bind_ext; intros ?.
  by rewrite puts_when.
Qed.

Lemma puts_one i st : puts [i] st = put i st.
Proof. simpl. by destruct (put i st). Qed.

Lemma store_puts c imps vals :
  store_impulses c imps vals = (st ← puts (slots_of c true) (imps, vals); Ok (fst st)).
Proof.
  destruct c; unfold store_impulses, slots_of.
  - by rewrite puts_one.
  - by rewrite puts_one.
  - cbn [puts]. rewrite !bind_assoc. apply bind_ext; intros ?.
    f_equal. by destruct (put 1 a).
  - rewrite !puts_app. cbn [puts]. rewrite !bind_assoc.
    apply bind_ext; intros a0. rewrite !bind_assoc. apply bind_ext; intros a1.
    rewrite !bind_assoc. apply bind_ext; intros a2. rewrite !bind_assoc.
    apply bind_ext; intros a3. rewrite !bind_assoc. apply bind_ext; intros a4.
    cbn. rewrite puts_app, puts_when, !bind_assoc. apply bind_ext; intros a5.
    rewrite puts_app, puts_when, !bind_assoc. apply bind_ext; intros a6.
    rewrite puts_app, puts_when, !bind_assoc. apply bind_ext; intros a7.
    by rewrite puts_when.
  - rewrite !store_dof_puts, !puts_app, !bind_assoc. apply bind_ext; intros ?.
    rewrite !store_dof_puts, !puts_app, !bind_assoc. apply bind_ext; intros ?.
    rewrite !store_dof_puts, !puts_app, !bind_assoc. apply bind_ext; intros ?.
    rewrite !store_dof_puts, !puts_app, !bind_assoc. apply bind_ext; intros ?.
    rewrite !store_dof_puts, !puts_app, !bind_assoc. apply bind_ext; intros ?.
    by rewrite !store_dof_puts.
  - rewrite !puts_app. cbn [puts]. rewrite !bind_assoc.
    apply bind_ext; intros a0. rewrite !bind_assoc. apply bind_ext; intros a1.
    rewrite !bind_assoc. apply bind_ext; intros a2. rewrite !bind_assoc.
    apply bind_ext; intros a3. cbn.
    rewrite puts_app, puts_when, !bind_assoc. apply bind_ext; intros a4.
    rewrite puts_app, puts_when, !bind_assoc. apply bind_ext; intros a5.
    rewrite puts_app, puts_when, !bind_assoc. apply bind_ext; intros a6.
    rewrite puts_app, puts_when, !bind_assoc. apply bind_ext; intros a7.
    by rewrite puts_when.
  - rewrite puts_app, puts_one, !bind_assoc. apply bind_ext; intros ?. by rewrite puts_when.
  - rewrite puts_app. cbn [puts]. rewrite !bind_assoc.
    apply bind_ext; intros a0. rewrite !bind_assoc. apply bind_ext; intros a1.
    rewrite !bind_assoc. apply bind_ext; intros a2. cbn.
    by rewrite puts_when, andb_true_r.
  - cbn [puts]. rewrite !bind_assoc.
    apply bind_ext; intros a0. rewrite !bind_assoc. apply bind_ext; intros a1.
    f_equal. by destruct (put 2 a1).
  - rewrite !puts_app. cbn [puts]. rewrite !bind_assoc.
    apply bind_ext; intros a0. rewrite !bind_assoc. apply bind_ext; intros a1.
    rewrite !bind_assoc. apply bind_ext; intros a2. cbn.
    destruct (n0 <? x_roll x); simpl.
    + rewrite !bind_assoc. apply bind_ext; intros a3. rewrite !bind_assoc.
      apply bind_ext; intros a4. by rewrite puts_when.
    + by rewrite puts_when.
Qed.

(** Fields listed at most once. *)
Lemma sublist_when {A} (b : bool) (l : list A) : sublist (when b l) l.
Proof. destruct b; simpl; [done|apply sublist_nil_l]. Qed.

Lemma dof_slots_sub d i : sublist (dof_slots d i) [i; i + 1; i + 2; i + 3].
Proof.
  unfold dof_slots. change [i; i + 1; i + 2; i + 3] with ([i] ++ [i + 1] ++ [i + 2] ++ [i + 3]).
  repeat apply sublist_app; apply sublist_when.
Qed.

Lemma slots_of_sub c sp : sublist (slots_of c sp) (seq 0 (slots c)).
Proof.
  destruct c; unfold slots_of.
  - done.
  - done.
  - done.
  - change (seq 0 _) with ([0; 1; 2; 3; 4] ++ [5] ++ [6] ++ [7] ++ [8]).
    repeat apply sublist_app; try apply sublist_when; done.
  - change (seq 0 _) with ([0; 1; 2; 3] ++ [4; 5; 6; 7] ++ [8; 9; 10; 11]
      ++ [12; 13; 14; 15] ++ [16; 17; 18; 19] ++ [20; 21; 22; 23]).
    repeat apply sublist_app; apply dof_slots_sub.
  - change (seq 0 _) with ([0; 1; 2; 3] ++ [4] ++ [5] ++ [6] ++ [7] ++ [8]).
    repeat apply sublist_app; try apply sublist_when; done.
  - change (seq 0 _) with ([0] ++ [1]). apply sublist_app; [done|apply sublist_when].
  - change (seq 0 _) with ([0; 1; 2] ++ [3]). apply sublist_app; [done|apply sublist_when].
  - done.
  - change (seq 0 _) with ([0; 1; 2] ++ [3; 4] ++ [5]).
    repeat apply sublist_app; try apply sublist_when; done.
Qed.

Lemma elem_sub {A} (l k : list A) x : sublist l k → x ∈ l → x ∈ k.
Proof.
  induction 1 as [|y l k _ IH|y l k _ IH]; [done| |].
  - rewrite !elem_of_cons. naive_solver.
  - intros. right. auto.
Qed.
Lemma nodup_sub {A} (l k : list A) : NoDup k → sublist l k → NoDup l.
Proof.
  intros Hk H. induction H as [|y l k Hs IH|y l k _ IH]; [done| |].
  - apply NoDup_cons in Hk as [Hy Hk]. apply NoDup_cons. split; [|auto].
    intros Hl. by eapply Hy, elem_sub.
  - apply NoDup_cons in Hk as [_ Hk]. auto.
Qed.

Lemma slots_of_nodup c sp : NoDup (slots_of c sp).
Proof. eapply nodup_sub; [apply NoDup_ListNoDup, seq_NoDup | apply slots_of_sub]. Qed.
Lemma slots_of_lt c sp i : i ∈ slots_of c sp → i < slots c.
Proof.
  intros H. eapply elem_sub in H; [|apply slots_of_sub].
  apply elem_of_seq in H. lia.
Qed.

Lemma fld_lookup (l : list T) i : fld l i = default n0 (l !! i).
Proof. revert i. induction l as [|a l IH]; intros [|i]; [done|done|done|apply IH]. Qed.

Lemma puts_ok sl imps vals :
  NoDup sl → (∀ i, i ∈ sl → i < length imps) → length sl ≤ length vals →
  ∃ imps', puts sl (imps, vals) = Ok (imps', drop (length sl) vals)
    ∧ length imps' = length imps
    ∧ map (fld imps') sl = take (length sl) vals
    ∧ (∀ i, i ∉ sl → fld imps' i = fld imps i).
Proof.
  revert imps vals. induction sl as [|i sl IH]; intros imps vals Hnd Hlt Hlen; simpl.
  { exists imps. by rewrite drop_0. }
  apply NoDup_cons in Hnd as [Hi Hnd].
  destruct vals as [|x vals]; [simpl in Hlen; lia|]. simpl.
  assert (i < length imps) as Hil by (apply Hlt; left).
  destruct (IH (<[i := x]> imps) vals) as (imps' & E & El & Em & Ek); [done| | |].
  { intros j Hj. rewrite insert_length. apply Hlt. by right. }
  { simpl in Hlen. lia. }
  exists imps'. rewrite insert_length in El. split; [done|]. split; [done|]. split.
  - f_equal; [|done]. rewrite Ek by done. rewrite fld_lookup, list_lookup_insert by done. done.
  - intros j Hj. apply not_elem_of_cons in Hj as [Hji Hj]. rewrite Ek by done.
    rewrite !fld_lookup, list_lookup_insert_ne by done. done.
Qed.

(** Reading beyond the vector. *)
Lemma puts_short sl imps vals :
  length vals < length sl → puts sl (imps, vals) = UB.
Proof.
  revert imps vals. induction sl as [|i sl IH]; intros imps vals Hlen; simpl in *; [lia|].
  destruct vals as [|x vals]; simpl; [done|]. apply IH. simpl in Hlen. lia.
Qed.

Lemma prepare_kept c imps dt g A B c' qs :
  prepare c imps dt g A B = Ok (c', qs) →
  slots c' = slots c ∧ kind c' = kind c
  ∧ (∀ sp, match c with KHinge _ => True | _ => slots_of c' sp = slots_of c sp end).
Proof.
  destruct c as [| |d st da|h|l0 l1 l2 a0 a1 a2|v|bss bsl|t|o|o x]; unfold prepare; intros H.
  - by injection H as <- <-.
  - by injection H as <- <-.
  - by injection H as <- <-.
  - destruct (prep_hinge h imps dt g) as [h' qs'] eqn:E. by injection H as <- <-.
  - apply bind_ok in H as (qs' & H & E). by injection E as <- <-.
  - destruct (prep_cv v imps dt g) as [v' qs'] eqn:E. injection H as <- <-.
    unfold prep_cv in E. apply pair_inv in E as [<- <-]. split; [done|]. split; [done|].
    intros sp. unfold slots_of. by destruct (v_has_limit v) eqn:E.
  - by injection H as <- <-.
  - by injection H as <- <-.
  - apply bind_ok in H as (qs' & H & E). by injection E as <- <-.
  - apply bind_ok in H as (qs' & H & E). by injection E as <- <-.
Qed.

(** With as many rows, the rows belong to the same fields. *)
Lemma slots_stable c imps dt g A B c' qs sp sp' :
  prepare c imps dt g A B = Ok (c', qs) →
  length (slots_of c' sp') = length (slots_of c sp) →
  slots_of c' sp' = slots_of c sp.
Proof.
  intros H Hlen. pose proof (prepare_kept _ _ _ _ _ _ _ _ H) as (_ & _ & Hk).
  destruct c as [| |d st da|h|l0 l1 l2 a0 a1 a2|v|bss bsl|t|o|o x].
  4: {
    unfold prepare in H.
    destruct (prep_hinge h imps dt g) as [h' qs'] eqn:E. injection H as <- <-.
    unfold prep_hinge in E. apply pair_inv in E as [<- _]. revert Hlen. unfold slots_of.
    set (h' := if h_has_limit h || h_has_spring h then _ else h).
    assert (h_has_limit h' = h_has_limit h ∧ h_has_spring h' = h_has_spring h
            ∧ h_has_torque h' = h_has_torque h ∧ h_has_bump h' = h_has_bump h)
      as (E1 & E2 & E3 & E4).
    { unfold h'. by destruct (_ || _). }
    rewrite E1, E2, E3, E4. rewrite !app_length.
    destruct (h_has_limit h && (h_has_bump h && nonzero (bump (h_min h') _ _ _))) eqn:E5;
    destruct (h_has_limit h && (h_has_bump h && nonzero (bump (h_min h) _ _ _))) eqn:E6;
      simpl; intros; try lia; done. }
  all: specialize (Hk sp'); cbn beta iota in Hk; rewrite Hk in Hlen |- *; try done.
  unfold slots_of in *. revert Hlen.
  destruct (n0 <? t), sp, sp'; simpl; intros; done.
Qed.

(** Handing [vals] back to a constraint prepared in this step. *)
Lemma store_prepared c imps dt g A B c' qs vals :
  prepare c imps dt g A B = Ok (c', qs) → spinning g c →
  length imps = slots c → length vals = length (row_values qs) →
  ∃ imps', store_impulses c' imps vals = Ok imps'
    ∧ length imps' = slots c'
    ∧ map (fld imps') (slots_of c' true) = vals
    ∧ (∀ i, i ∉ slots_of c' true → fld imps' i = fld imps i).
Proof.
  intros H Hsp Hl Hv. rewrite store_puts.
  pose proof (prepare_kept _ _ _ _ _ _ _ _ H) as (Hsl & _ & _).
  rewrite (prepare_values _ _ _ _ _ _ _ _ H), map_length in Hv.
  assert (slots_of c' (g_spin g) = slots_of c' true) as Eq.
  { destruct c'; try done. unfold slots_of. destruct (n0 <? torque) eqn:E; [|done].
    destruct c as [| |d st da|h|l0 l1 l2 a0 a1 a2|v|bss bsl|t|o|o x]; unfold prepare in H.
    4: by destruct (prep_hinge h imps dt g).
    5: by destruct (prep_cv v imps dt g).
    6: { injection H as <- _. simpl in Hsp. by rewrite Hsp. }
    all: first [by apply bind_ok in H as (? & _ & H) | done]. }
  rewrite Eq in Hv.
  destruct (puts_ok (slots_of c' true) imps vals) as (imps' & E & El & Em & Ek).
  - apply slots_of_nodup.
  - intros i Hi. apply slots_of_lt in Hi. lia.
  - lia.
  - exists imps'. rewrite E. simpl. rewrite El. split; [done|]. split; [lia|].
    split; [|done]. rewrite Em. by rewrite take_ge by lia.
Qed.

End lens.

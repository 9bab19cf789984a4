(** Properties of constraint rows and their impulses. *)
From Coq Require Import Field_theory Field Qcanon Reals.
From Verif Require Import Outcome RowModel JointModel RowSpec JointLens RowSim PackProofs RowField
  RowBounds RowVel.
Close Scope R_scope. Close Scope Q_scope. Close Scope Qc_scope. Open Scope nat_scope. Open Scope num_scope.

(** * Rows of one constraint. *)
Section own.
Context {N : num}.
Notation T := (nt N).
Definition own_rows (l : owned N) (key : nat * nat) : list (elem N) :=
  map snd (filter (λ x, fst x = key) l).

Lemma own_values_rows l key : own_values l key = concat (map elem_values (own_rows l key)).
Proof. unfold own_values, own_rows. by rewrite map_map. Qed.

Lemma own_rows_flat (bs : list ((nat * nat) * list (elem N))) key b :
  NoDup (map fst bs) → (key, b) ∈ bs → own_rows (flat bs) key = b.
Proof.
  intros Hnd Hin. unfold own_rows.
  assert (∀ bs : list ((nat * nat) * list (elem N)), key ∉ map fst bs →
    filter (λ x, fst x = key) (flat bs) = []) as Hno.
  { clear. intros bs. induction bs as [|[k l] bs IH]; intros Hk; [done|].
    cbn [map] in Hk. apply not_elem_of_cons in Hk as [Hne Hk].
    unfold flat. cbn [map concat fst snd]. rewrite filter_app. fold (flat bs). rewrite (IH Hk), app_nil_r.
    cbn [fst] in Hne. clear - Hne. induction l as [|e l IH]; [done|]. cbn [map].
    rewrite filter_cons_False by (cbn [fst]; congruence). done. }
  induction bs as [|[k l] bs IH]; [by apply elem_of_nil in Hin|].
  cbn [map fst] in Hnd. apply NoDup_cons in Hnd as [Hk Hnd].
  unfold flat. cbn [map concat fst snd]. rewrite filter_app, map_app. fold (flat bs).
  apply elem_of_cons in Hin as [[= <- <-]|Hin].
  - rewrite (Hno bs) by done. simpl. rewrite app_nil_r.
    clear. induction b as [|e b IH]; [done|]. cbn [map].
    rewrite filter_cons_True by done. cbn [map snd]. by rewrite IH.
  - rewrite (IH Hnd Hin).
    assert (k ≠ key) as Hne.
    { intros ->. apply Hk. apply elem_of_list_fmap. by exists (key, b). }
    replace (filter (λ x, x.1 = key) (map (pair k) l)) with (@nil ((nat*nat) * elem N)); [done|].
    clear - Hne. induction l as [|e l IH]; [done|]. cbn [map].
    rewrite filter_cons_False by done. done.
Qed.

Lemma own_rows_island es dt g bodies cs e t c :
  island_fits (N:=N) es dt g bodies cs → e ∈ es → cs !! (e, t) = Some c →
  own_rows (island_rows es dt g bodies cs) (e, t) = elems_of dt g bodies (e, t) c.
Proof.
  intros (Hnd & Hwf & _) He Hc. rewrite island_rows_flat.
  apply own_rows_flat.
  - apply blocks_nodup; [done|]. apply NoDup_ListNoDup, seq_NoDup.
  - apply elem_all_blocks. exists e, t, c. split; [done|]. split; [|done].
    apply elem_of_seq. destruct (Hwf e t c He Hc). lia.
Qed.

Lemma own_rows_same l l' key :
  Forall2 same_owned l l' → Forall2 same_elem (own_rows l key) (own_rows l' key).
Proof.
  unfold own_rows. induction 1 as [|x y l l' [Hk H] _ IH]; [constructor|].
  destruct (decide (fst x = key)).
  - rewrite !filter_cons_True by congruence. by constructor.
  - by rewrite !filter_cons_False by congruence.
Qed.
Lemma own_rows_forall (P : elem N → Prop) l key :
  Forall (λ x, P (snd x)) l → Forall P (own_rows l key).
Proof.
  unfold own_rows. induction 1 as [|x l H _ IH]; [constructor|].
  destruct (decide (fst x = key)).
  - rewrite filter_cons_True by done. by constructor.
  - by rewrite filter_cons_False.
Qed.
End own.

(** * C47: every constraint gets back the impulses of its own rows. *)
Section C47.
Context {N : num}.
Notation T := (nt N).
Variables (es : list nat) (n : nat) (dt : nt N) (g : nat → nat → geo N) (bodies : nat → body N).
Variables (cs : consmap N) (s : store N).
Hypothesis fits : island_fits es dt g bodies cs.

(** The reference run: the prepared rows, warm started, then [n] iterations. *)
Let L := island_rows es dt g bodies cs.
Let R := own_iterate n L (own_warm L s).

(** The step succeeds; velocities are those of the reference run; the next
    [prepare] of a constraint, whatever the bodies and the time step have become,
    starts its rows from exactly the impulses its rows ended with; impulse
    fields without a row are kept; other constraints are not touched. *)
Theorem impulses_come_back :
  ∃ cs' k, island_step es n dt g bodies cs s = Ok (cs', k, snd R)
    ∧ (∀ e t c, e ∈ es → cs !! (e, t) = Some c →
         ∃ c', cs' !! (e, t) = Some c'
           ∧ c_a c' = c_a c ∧ c_b c' = c_b c
           ∧ kind (c_cfg c') = kind (c_cfg c) ∧ length (c_imp c') = length (c_imp c)
           ∧ ∀ dt' g' A' B' cfg'' qs,
               prepare (c_cfg c') (c_imp c') dt' g' A' B' = Ok (cfg'', qs) →
               length (row_values qs) = length (own_values (fst R) (e, t)) →
               row_values qs = own_values (fst R) (e, t))
    ∧ (∀ e t, e ∉ es → cs' !! (e, t) = cs !! (e, t)).
Proof.
  destruct (island_step_ok dt g bodies es n cs s fits) as (cs' & k & E & _ & H & H').
  exists cs', k. split; [exact E|]. split; [|exact H'].
  intros e t c He Hc. destruct (H e t c He Hc) as (cfg & qs & imps & Hp & Hl & Hlen & Hvl & Hv & _).
  destruct fits as (_ & Hwf & _). destruct (Hwf e t c He Hc) as (_ & Hk & Hsl & _ & _).
  destruct (prepare_kept _ _ _ _ _ _ _ _ Hp) as (K1 & K2 & _).
  exists (Con cfg imps (c_a c) (c_b c)). cbn [c_a c_b c_cfg c_imp].
  split; [done|]. do 2 (split; [done|]). split; [congruence|]. split; [congruence|].
  intros dt' g' A' B' cfg'' qs' Hp' Hlen'.
  pose proof (prepare_values _ _ _ _ _ _ _ _ Hp') as Hv'.
  rewrite Hv'. rewrite (slots_stable _ _ _ _ _ _ _ _ true _ Hp').
  - exact Hv.
  - change (own_values (fst R) (e, t))
      with (own_values (fst (own_iterate n (island_rows es dt g bodies cs)
        (own_warm (island_rows es dt g bodies cs) s))) (e, t)) in Hlen'.
    rewrite <- Hv, Hv', !map_length in Hlen'. exact Hlen'.
Qed.

(** The rows a constraint ends with are its prepared rows with other impulses. *)
Theorem rows_keep_their_constraint e t c :
  e ∈ es → cs !! (e, t) = Some c →
  Forall2 same_elem (elems_of dt g bodies (e, t) c) (own_rows (fst R) (e, t))
  ∧ own_values (fst R) (e, t) = concat (map elem_values (own_rows (fst R) (e, t))).
Proof.
  intros He Hc. split; [|apply own_values_rows].
  rewrite <- (own_rows_island es dt g bodies cs e t c fits He Hc).
  apply own_rows_same. apply own_iterate_same.
Qed.

End C47.

(** Only a hinge with a bump stop and a point constraint can have a different
    number of rows in the next step. *)
Theorem same_number_of_values {N : num} (c : config N) imps dt g A B cfg qs imps' dt' g' A' B' cfg' qs' :
  prepare c imps dt g A B = Ok (cfg, qs) →
  prepare cfg imps' dt' g' A' B' = Ok (cfg', qs') →
  match c with KHinge _ | KPoint _ => False | _ => True end →
  length (row_values qs') = length (row_values qs).
Proof.
  intros H H' Hc.
  rewrite (prepare_values _ _ _ _ _ _ _ _ H), (prepare_values _ _ _ _ _ _ _ _ H'), !map_length.
  destruct (prepare_kept _ _ _ _ _ _ _ _ H) as (_ & K & E).
  destruct (prepare_kept _ _ _ _ _ _ _ _ H') as (_ & K' & E').
  specialize (E (g_spin g)). specialize (E' (g_spin g')).
  destruct c as [| |d st da|h|l0 l1 l2 a0 a1 a2|v|bss bsl|t|o|o x]; try done;
    destruct cfg as [| |d' st' da'|h'|l0' l1' l2' a0' a1' a2'|v'|bss' bsl'|t'|o'|o' x'];
    try discriminate K; rewrite E'; done.
Qed.

(** * C39: limits. *)
(** Only contacts have friction rows. *)
Local Ltac fl := repeat first [apply Forall_cons_2 | apply Forall_nil_2].
Lemma prepare_plain {N : num} (c : config N) imps dt g A B cfg qs :
  prepare c imps dt g A B = Ok (cfg, qs) → kind c < 8 →
  Forall (λ q, q_fric q = None ∧ q_roll q = None ∧ q_spin q = None) qs.
Proof.
  assert (Hw : ∀ (b : bool) (l : list (req N)),
    Forall (λ q, q_fric q = None ∧ q_roll q = None ∧ q_spin q = None) l →
    Forall (λ q, q_fric q = None ∧ q_roll q = None ∧ q_spin q = None) (when b l)).
  { intros [] l H; [done|constructor]. }
  assert (Hl : ∀ i lo up x, let q := limit_row g imps i lo up x in
    q_fric q = None ∧ q_roll q = None ∧ q_spin q = None).
  { intros i lo up x. cbn zeta. unfold limit_row. by destruct (_ <? _). }
  assert (Hd : ∀ d i qs, prep_dof (N:=N) d i imps dt g = Ok qs →
    Forall (λ q, q_fric q = None ∧ q_roll q = None ∧ q_spin q = None) qs).
  { intros d i qs' H. unfold prep_dof in H. apply bind_ok in H as ([] & _ & H). injection H as <-.
    repeat apply Forall_app_2; apply Hw; fl; try done.
    destruct (d_nonzero d); [apply Hl|done]. }
  destruct c as [| |d st da|h|l0 l1 l2 a0 a1 a2|v|bss bsl|t|o|o x]; unfold prepare; intros H Hk.
  - injection H as <- <-. by fl.
  - injection H as <- <-. by fl.
  - injection H as <- <-. by fl.
  - destruct (prep_hinge h imps dt g) as [h' qs'] eqn:E. injection H as <- <-.
    unfold prep_hinge in E. apply pair_inv in E as [_ <-].
    repeat apply Forall_app_2; try (apply Hw); fl; try done; try apply Hl.
    apply Hw; by fl.
  - apply bind_ok in H as (q & Hq & H). injection H as <- <-. unfold prep_generic in Hq.
    apply bind_ok in Hq as (r0 & H0 & Hq). apply bind_ok in Hq as (r1 & H1 & Hq).
    apply bind_ok in Hq as (r2 & H2 & Hq). apply bind_ok in Hq as (r3 & H3 & Hq).
    apply bind_ok in Hq as (r4 & H4 & Hq). apply bind_ok in Hq as (r5 & H5 & Hq).
    injection Hq as <-. repeat apply Forall_app_2; eauto.
  - destruct (prep_cv v imps dt g) as [h' qs'] eqn:E. injection H as <- <-.
    unfold prep_cv in E. apply pair_inv in E as [_ <-].
    repeat apply Forall_app_2; try (apply Hw); fl; try done;
      destruct (v_has_limit v); try done; apply Hl.
  - injection H as <- <-. unfold prep_cone. constructor; [done|]. apply Hw. by fl.
  - injection H as <- <-. unfold prep_point. fl; try done.
    apply Hw. by fl.
  - cbn in Hk. lia.
  - cbn in Hk. lia.
Qed.

Section C39.
Context {N : num}.
Notation T := (nt N).
Variables (es : list nat) (n : nat) (dt : nt N) (g : nat → nat → geo N) (bodies : nat → body N).
Variables (cs : consmap N) (s : store N).
Hypothesis fits : island_fits es dt g bodies cs.
Let L := island_rows es dt g bodies cs.
Let R := own_iterate (S n) L (own_warm L s).

(** Any number type in which no number is below itself (floats included):
    every row of every constraint. *)
Theorem rows_within_limits e t c :
  irreflexive N → e ∈ es → cs !! (e, t) = Some c →
  Forall2 (λ q x, same_elem q x ∧ (le (r_lo (e_row q)) (r_up (e_row q)) →
                    le (r_lo (e_row q)) (r_imp (e_row x)) ∧ le (r_imp (e_row x)) (r_up (e_row q))))
          (elems_of dt g bodies (e, t) c) (own_rows (fst R) (e, t)).
Proof.
  intros Hirr He Hc.
  destruct (rows_keep_their_constraint es (S n) dt g bodies cs s fits e t c He Hc) as [Hs _].
  pose proof (own_rows_forall _ _ (e, t) (own_in_limits n L (own_warm L s) Hirr)) as Hb.
  fold L in Hs. fold R in Hs, Hb. clear - Hs Hb.
  induction Hs as [|q x qs xs H _ IH]; [constructor|]. apply Forall_cons in Hb as [Hx Hb].
  constructor; [|by apply IH]. split; [done|]. destruct H as [Hr _].
  unfold in_limits, row_bounded in Hx. unfold same_row, set_imp in Hr. injection Hr as _ _ _ E1 E2 _.
  rewrite E1, E2. done.
Qed.

(** Exact numbers: friction, rolling and spinning friction of every row. *)
Theorem friction_within_limits e t c :
  exact N → has_sqrt N → e ∈ es → cs !! (e, t) = Some c →
  Forall (λ x, (∀ f, e_fric x = Some f → fric_bounded f (e_row x))
             ∧ (∀ f, e_roll x = Some f → fric_bounded f (e_row x))
             ∧ (∀ p, e_spin x = Some p → le n0 (p_mu p ⊙ r_imp (e_row x)) → spin_bounded p (e_row x)))
         (own_rows (fst R) (e, t)).
Proof.
  intros Hx Hs He Hc.
  pose proof (own_rows_forall _ _ (e, t) (own_in_circle n L (own_warm L s) Hx Hs)) as H1.
  pose proof (own_rows_forall _ _ (e, t) (own_in_roll n L (own_warm L s) Hx Hs)) as H2.
  pose proof (own_rows_forall _ _ (e, t) (own_in_spin n L (own_warm L s) Hx)) as H3.
  fold R in H1, H2, H3. rewrite Forall_forall in *. intros x Hin.
  split; [by apply H1|]. split; [by apply H2|]. by apply H3.
Qed.

(** A constraint with one row. *)
Lemma single_row e t c cfg q :
  e ∈ es → cs !! (e, t) = Some c →
  prepare (c_cfg c) (c_imp c) dt (g e t) (bodies (c_a c)) (bodies (c_b c)) = Ok (cfg, [q]) →
  ∃ x, own_rows (fst R) (e, t) = [x]
    ∧ own_values (fst R) (e, t) = elem_values x
    ∧ same_elem (finish_row (bodies (c_a c)) (bodies (c_b c)) q) x
    ∧ (irreflexive N → le (q_lo q) (q_up q) →
         le (q_lo q) (r_imp (e_row x)) ∧ le (r_imp (e_row x)) (q_up q))
    ∧ (exact N → has_sqrt N →
         (∀ f, e_fric x = Some f → fric_bounded f (e_row x))
         ∧ (∀ f, e_roll x = Some f → fric_bounded f (e_row x))
         ∧ (∀ p, e_spin x = Some p → le n0 (p_mu p ⊙ r_imp (e_row x)) → spin_bounded p (e_row x))).
Proof.
  intros He Hc Hp.
  destruct (rows_keep_their_constraint es (S n) dt g bodies cs s fits e t c He Hc) as [Hs Hv].
  fold L in Hs, Hv. fold R in Hs, Hv.
  assert (elems_of dt g bodies (e, t) c = [finish_row (bodies (c_a c)) (bodies (c_b c)) q]) as Hel.
  { unfold elems_of, prepared. cbn [fst snd]. by rewrite Hp. }
  pose proof (rows_within_limits e t c) as Hw.
  pose proof (friction_within_limits e t c) as Hf.
  rewrite Hel in Hs, Hw. apply Forall2_cons_inv_l in Hs as (x & l & Hx & Hl & Hr).
  apply Forall2_nil_inv_l in Hl as ->. rewrite Hr in Hv, Hw, Hf.
  exists x. split; [done|]. split; [rewrite Hv; simpl; by rewrite app_nil_r|]. split; [done|]. split.
  - intros Hirr Hle. specialize (Hw Hirr He Hc). apply Forall2_cons in Hw as [[_ Hw] _].
    by apply Hw.
  - intros H1 H2. specialize (Hf H1 H2 He Hc). by apply Forall_cons in Hf as [Hf _].
Qed.

Lemma three (l : list T) : length l = 3 → l = map (fld l) [0; 1; 2].
Proof. intros H. do 3 (destruct l as [|? l]; [done|]). by destruct l. Qed.
Lemma six (l : list T) : length l = 6 → l = map (fld l) [0; 1; 2; 3; 4; 5].
Proof. intros H. do 6 (destruct l as [|? l]; [done|]). by destruct l. Qed.

(** What the application reads from a contact point after the step. *)
Theorem contact_impulses_bounded e o c cs' k s' :
  exact N → has_sqrt N → le n0 (nlarge (n:=N)) →
  e ∈ es → cs !! (e, 8) = Some c → c_cfg c = KContact o →
  island_step es (S n) dt g bodies cs s = Ok (cs', k, s') →
  ∃ nrm f0 f1, c_imp <$> cs' !! (e, 8) = Some [nrm; f0; f1]
    ∧ le n0 nrm ∧ le nrm nlarge
    ∧ le (f0 ⊙ f0 ⊕ f1 ⊙ f1) ((o_mu o ⊙ nrm) ⊙ (o_mu o ⊙ nrm)).
Proof.
  intros Hx Hsq Hlarge He Hc Ho Hstep.
  destruct (island_step_ok dt g bodies es (S n) cs s fits) as (cs1 & k1 & E & _ & H & _).
  rewrite Hstep in E. injection E as <- <- _.
  destruct (H e 8 c He Hc) as (cfg & qs & imps & Hp & Hl & Hlen & _ & Hv & _).
  rewrite Hl. cbn. rewrite Ho in Hp. pose proof Hp as Hp0. rewrite <- Ho in Hp0.
  unfold prepare in Hp. apply bind_ok in Hp as (q & Hq & Hp). injection Hp as <- <-.
  destruct (prep_contact_values o _ _ _ _ q Hq) as (Q1 & Q2 & Q3 & Q4 & Q5 & Q6).
  destruct (single_row e 8 c (KContact o) q He Hc Hp0) as (x & _ & Hval & (_ & Sf & Sr & Ss) & Hlim & Hfr).
  cbn [finish_row e_fric e_roll e_spin] in Sf, Sr, Ss. rewrite Q4 in Sf. rewrite Q2 in Sr. rewrite Q3 in Ss.
  inversion Sf as [a f (_ & _ & Hmu) Ha Hf|]; subst a. inversion Sr as [|Hd1 Hro]. inversion Ss as [|Hd2 Hsp].
  rewrite Q5, Q6 in Hlim. destruct (Hlim (ex_irr N Hx) Hlarge) as [B1 B2].
  destruct (Hfr Hx Hsq) as [B3 _]. specialize (B3 f (eq_sym Hf)).
  change (island_rows es dt g bodies cs) with L in Hv. fold R in Hv. rewrite Hval in Hv.
  unfold elem_values in Hv. rewrite <- Hf, <- Hro, <- Hsp in Hv. cbn [slots_of] in Hv.
  rewrite <- three in Hv by exact Hlen. rewrite Hv. cbn [from_option fric_values app].
  eexists _, _, _. split; [done|]. split; [done|]. split; [done|].
  unfold fric_bounded in B3. cbn [f_mu] in Hmu. rewrite <- Hmu in B3. exact B3.
Qed.

(** A contact with rolling and spinning friction: same, and rolling within the
    rolling circle, spinning within its limit. *)
Theorem contact_extras_impulses_bounded e o x c cs' k s' :
  exact N → has_sqrt N → le n0 (nlarge (n:=N)) → le n0 dt →
  e ∈ es → cs !! (e, 9) = Some c → c_cfg c = KExtras o x →
  island_step es (S n) dt g bodies cs s = Ok (cs', k, s') →
  ∃ nrm f0 f1 r0 r1 sp, c_imp <$> cs' !! (e, 9) = Some [nrm; f0; f1; r0; r1; sp]
    ∧ le n0 nrm
    ∧ le (f0 ⊙ f0 ⊕ f1 ⊙ f1) ((o_mu o ⊙ nrm) ⊙ (o_mu o ⊙ nrm))
    ∧ ((n0 <? x_roll x) = true → le (r0 ⊙ r0 ⊕ r1 ⊙ r1) ((x_roll x ⊙ nrm) ⊙ (x_roll x ⊙ nrm)))
    ∧ ((n0 <? x_spin x) = true → le (nneg (x_spin x ⊙ nrm)) sp ∧ le sp (x_spin x ⊙ nrm)).
Proof.
  intros Hx Hsq Hlarge Hdt He Hc Ho Hstep.
  destruct (island_step_ok dt g bodies es (S n) cs s fits) as (cs1 & k1 & E & _ & H & _).
  rewrite Hstep in E. injection E as <- <- _.
  destruct (H e 9 c He Hc) as (cfg & qs & imps & Hp & Hl & Hlen & _ & Hv & _).
  rewrite Hl. cbn. rewrite Ho in Hp. pose proof Hp as Hp0. rewrite <- Ho in Hp0.
  unfold prepare in Hp. apply bind_ok in Hp as (q & Hq & Hp). injection Hp as <- <-.
  destruct (single_row e 9 c (KExtras o x) q He Hc Hp0) as (y & _ & Hval & (_ & Sf & Sr & Ss) & Hlim & Hfr).
  assert (le (q_lo q) (q_up q) ∧ q_lo q = n0) as [Hle Hlo].
  { clear - Hq Hx Hlarge Hdt. unfold prep_extras in Hq.
    apply bind_ok in Hq as (q0 & H0 & Hq).
    apply (prep_contact_values o) in H0 as (_ & _ & _ & _ & Q5 & Q6).
    apply bind_ok in Hq as (sp & _ & Hq). injection Hq as <-. cbn [q_lo q_up].
    rewrite Q5, Q6. split; [|done]. destruct (_ && _); [|done].
    apply (mul_nonneg N Hx); [|done]. unfold fmax. destruct (_ <? n0) eqn:E; [apply (le_refl N Hx)|exact E]. }
  assert (∃ fr, e_fric y = Some fr ∧ f_mu fr = o_mu o) as (fr & Ef & Emu).
  { destruct (prep_extras_inv o x _ _ _ _ _ q Hq) as (_ & Qf & _).
    cbn [finish_row e_fric] in Sf. rewrite Qf in Sf.
    inversion Sf as [a f (_ & _ & Hmu) Ha Hf|]. subst a. exists f. by split. }
  assert (if n0 <? x_roll x then ∃ fr, e_roll y = Some fr ∧ f_mu fr = x_roll x else e_roll y = None) as Er.
  { destruct (prep_extras_inv o x _ _ _ _ _ q Hq) as (_ & _ & Qr & _).
    cbn [finish_row e_roll] in Sr. rewrite Qr in Sr. destruct (n0 <? x_roll x).
    - inversion Sr as [a f (_ & _ & Hmu) Ha Hf|]. subst a. exists f. by split.
    - by inversion Sr. }
  assert (if n0 <? x_spin x then ∃ sp, e_spin y = Some sp ∧ p_mu sp = x_spin x else e_spin y = None) as Es.
  { cbn [finish_row e_spin] in Ss. unfold prep_extras in Hq.
    apply bind_ok in Hq as (q0 & H0 & Hq). apply bind_ok in Hq as (sp & Hsp & Hq).
    injection Hq as <-. cbn [q_spin] in Ss. destruct (n0 <? x_spin x).
    - apply bind_ok in Hsp as ([] & _ & Hsp). injection Hsp as <-.
      inversion Ss as [a f (_ & _ & _ & _ & Hmu) Ha Hf|]. subst a. exists f. by split.
    - injection Hsp as <-. by inversion Ss. }
  destruct (Hlim (ex_irr N Hx) Hle) as [B1 _]. rewrite Hlo in B1.
  destruct (Hfr Hx Hsq) as (B3 & B4 & B5). specialize (B3 fr Ef).
  change (island_rows es dt g bodies cs) with L in Hv. fold R in Hv. rewrite Hval in Hv.
  unfold elem_values in Hv. rewrite Ef in Hv. cbn [slots_of] in Hv.
  rewrite (six imps) by exact Hlen. cbn [map].
  eexists _, _, _, _, _, _. split; [done|].
  cbn [map app] in Hv. injection Hv as V0 V1 V2 V3. rewrite V0, V1, V2.
  split; [done|]. split; [unfold fric_bounded in B3; by rewrite Emu in B3|].
  cbn [from_option] in V3.
  destruct (n0 <? x_roll x).
  - destruct Er as (rl & Er & Emr). rewrite Er in V3. cbn in V3.
    injection V3 as V3 V4 V5. rewrite V3, V4. split.
    { intros _. specialize (B4 rl Er). unfold fric_bounded in B4. by rewrite Emr in B4. }
    destruct (n0 <? x_spin x) eqn:Exs; [|done]. intros _.
    destruct Es as (sp & Es & Ems). rewrite Es in V5. cbn in V5. injection V5 as V5. rewrite V5.
    specialize (B5 sp Es). unfold spin_bounded in B5. rewrite Ems in B5. apply B5.
    apply (mul_nonneg N Hx); [by apply (lt_le N Hx)|done].
  - rewrite Er in V3. cbn in V3. split; [done|].
    destruct (n0 <? x_spin x) eqn:Exs; [|done]. intros _.
    destruct Es as (sp & Es & Ems). rewrite Es in V3. cbn in V3. injection V3 as V5. rewrite V5.
    specialize (B5 sp Es). unfold spin_bounded in B5. rewrite Ems in B5. apply B5.
    apply (mul_nonneg N Hx); [by apply (lt_le N Hx)|done].
Qed.

(** Constraints without friction rows: the [j]-th active impulse field stays
    within the limits of the [j]-th row [prepare] made. *)
Theorem joint_impulses_bounded e t c cfg qs cs' k s' j q i :
  irreflexive N → e ∈ es → cs !! (e, t) = Some c → t < 8 →
  prepare (c_cfg c) (c_imp c) dt (g e t) (bodies (c_a c)) (bodies (c_b c)) = Ok (cfg, qs) →
  island_step es (S n) dt g bodies cs s = Ok (cs', k, s') →
  qs !! j = Some q → slots_of cfg true !! j = Some i → le (q_lo q) (q_up q) →
  ∃ c', cs' !! (e, t) = Some c' ∧ le (q_lo q) (fld (c_imp c') i) ∧ le (fld (c_imp c') i) (q_up q).
Proof.
  intros Hirr He Hc Ht Hp Hstep Hq Hi Hle.
  destruct (island_step_ok dt g bodies es (S n) cs s fits) as (cs1 & k1 & E & _ & H & _).
  rewrite Hstep in E. injection E as <- <- _.
  destruct (H e t c He Hc) as (cfg' & qs' & imps & Hp' & Hl & Hlen & _ & Hv & _).
  rewrite Hp in Hp'. injection Hp' as <- <-.
  exists (Con cfg imps (c_a c) (c_b c)). split; [done|]. cbn [c_imp].
  destruct fits as (_ & Hwf & _). destruct (Hwf e t c He Hc) as (_ & Hk & _). cbn [snd] in Hk.
  pose proof (prepare_plain _ _ _ _ _ _ _ _ Hp ltac:(lia)) as Hplain.
  pose proof (rows_within_limits e t c Hirr He Hc) as Hw.
  assert (elems_of dt g bodies (e, t) c
          = map (finish_row (bodies (c_a c)) (bodies (c_b c))) qs) as Hel.
  { unfold elems_of, prepared. cbn [fst snd]. by rewrite Hp. }
  rewrite Hel in Hw.
  change (island_rows es dt g bodies cs) with L in Hv. fold R in Hv.
  rewrite own_values_rows in Hv.
  assert (concat (map elem_values (own_rows (fst R) (e, t)))
          = map (λ x, r_imp (e_row x)) (own_rows (fst R) (e, t))) as Hone.
  { clear - Hw Hplain. revert Hw. generalize (own_rows (fst R) (e, t)) as xs.
    induction Hplain as [|q qs (F1 & F2 & F3) _ IH]; intros xs Hw.
    - by apply Forall2_nil_inv_l in Hw as ->.
    - cbn [map] in Hw. apply Forall2_cons_inv_l in Hw as (x & xs' & [(_ & S1 & S2 & S3) _] & Hw & ->).
      cbn [map concat]. rewrite (IH xs' Hw). unfold elem_values.
      cbn [finish_row e_fric e_roll e_spin] in S1, S2, S3. rewrite F1 in S1. rewrite F2 in S2. rewrite F3 in S3.
      inversion S1. inversion S2. inversion S3. done. }
  rewrite Hone in Hv.
  assert (map (finish_row (bodies (c_a c)) (bodies (c_b c))) qs !! j
          = Some (finish_row (bodies (c_a c)) (bodies (c_b c)) q)) as Hj.
  { by rewrite list_lookup_fmap, Hq. }
  destruct (Forall2_lookup_l _ _ _ _ _ Hw Hj) as (x & Hx & _ & Hb).
  assert (map (fld imps) (slots_of cfg true) !! j = Some (r_imp (e_row x))) as Hfi.
  { rewrite Hv, list_lookup_fmap. by rewrite Hx. }
  rewrite list_lookup_fmap, Hi in Hfi. injection Hfi as ->. by apply Hb.
Qed.

(** A hinge without damping never applies more friction than its torque over
    the time step; a point constraint likewise. *)
Theorem hinge_friction_bounded e c h cs' k s' :
  irreflexive N → e ∈ es → cs !! (e, 3) = Some c → c_cfg c = KHinge h →
  (n0 <? h_torque h) = true → (n0 <? h_damp h) = false →
  le (nneg (h_torque h ⊙ dt)) (h_torque h ⊙ dt) →
  island_step es (S n) dt g bodies cs s = Ok (cs', k, s') →
  ∃ c', cs' !! (e, 3) = Some c'
    ∧ le (nneg (h_torque h ⊙ dt)) (fld (c_imp c') 8) ∧ le (fld (c_imp c') 8) (h_torque h ⊙ dt).
Proof.
  intros Hirr He Hc Ho Ht Hd Hle Hstep.
  assert (∃ cfg qs q j, prepare (c_cfg c) (c_imp c) dt (g e 3) (bodies (c_a c)) (bodies (c_b c)) = Ok (cfg, qs)
    ∧ qs !! j = Some q ∧ slots_of cfg true !! j = Some 8
    ∧ q_lo q = nneg (h_torque h ⊙ dt) ∧ q_up q = h_torque h ⊙ dt) as (cfg & qs & q & j & Hp & Hq & Hs & Hl & Hu).
  { rewrite Ho. cbn [prepare].
    destruct (prep_hinge h (c_imp c) dt (g e 3)) as [h' qs] eqn:E.
    unfold prep_hinge in E. apply pair_inv in E as [Eh Eq].
    set (h1 := if h_has_limit h || h_has_spring h then _ else h) in *.
    assert (h_has_limit h1 = h_has_limit h ∧ h_has_spring h1 = h_has_spring h
            ∧ h_has_torque h1 = true ∧ h_has_torque h = true ∧ h_has_bump h1 = h_has_bump h
            ∧ h_torque h1 = h_torque h ∧ (n0 <? h_damp h1) = false)
      as (E1 & E2 & E3 & E3' & E4 & E5 & E6).
    { assert (h_has_torque h = true) as Ht' by (unfold h_has_torque; by rewrite Ht).
      unfold h1. destruct (h_has_limit h || h_has_spring h); by repeat split. }
    rewrite E6 in Eq. rewrite E3', E5 in Eq. rewrite <- Eh.
    exists (KHinge h1), qs. rewrite <- Eq, E4. clear Eq Eh qs h'.
    exists (sym_row (g e 3) (c_imp c) 8 (h_torque h ⊙ dt)).
    unfold slots_of. rewrite E1, E2, E3, E4.
    destruct (h_has_limit h), (h_has_spring h), (h_has_bump h); cbn [andb when app];
      try destruct (nonzero _); cbn [andb when app];
      first [by exists 5 | by exists 6 | by exists 7 | by exists 8]. }
  destruct (joint_impulses_bounded e 3 c cfg qs cs' k s' j q 8 Hirr He Hc ltac:(lia) Hp Hstep Hq Hs)
    as (c' & H1 & H2 & H3).
  { by rewrite Hl, Hu. }
  rewrite Hl in H2. rewrite Hu in H3. by exists c'.
Qed.

(** The limit of a hinge only pushes back: below the middle of the range its
    impulse is not positive, above it is not negative. *)
Theorem hinge_limit_pushes e c h cs' k s' :
  irreflexive N → e ∈ es → cs !! (e, 3) = Some c → c_cfg c = KHinge h →
  (h_min h <? h_max h) = true → le n0 (nlarge : N) → le (nneg (nlarge : N)) n0 →
  island_step es (S n) dt g bodies cs s = Ok (cs', k, s') →
  ∃ c', cs' !! (e, 3) = Some c' ∧
    if (h_angle h ⊕ g_s (g e 3) 0) <? (h_min h ⊕ h_max h) ⊘ (n1 ⊕ n1)
    then le (fld (c_imp c') 5) n0 else le n0 (fld (c_imp c') 5).
Proof.
  intros Hirr He Hc Ho Hlim Hl1 Hl2 Hstep.
  set (b := (h_angle h ⊕ g_s (g e 3) 0) <? (h_min h ⊕ h_max h) ⊘ (n1 ⊕ n1)).
  assert (∃ cfg qs q j, prepare (c_cfg c) (c_imp c) dt (g e 3) (bodies (c_a c)) (bodies (c_b c)) = Ok (cfg, qs)
    ∧ qs !! j = Some q ∧ slots_of cfg true !! j = Some 5
    ∧ q_lo q = (if b then nneg (nlarge : N) else n0) ∧ q_up q = (if b then n0 else nlarge : N)) as (cfg & qs & q & j & Hp & Hq & Hs & Hl & Hu).
  { rewrite Ho. cbn [prepare].
    destruct (prep_hinge h (c_imp c) dt (g e 3)) as [h' qs] eqn:E.
    unfold prep_hinge in E. apply pair_inv in E as [Eh Eq].
    assert (h_has_limit h = true) as Hhl by done. rewrite Hhl in Eh, Eq. cbn [orb] in Eh, Eq.
    rewrite <- Eh. eexists _, qs, _, 5. split; [done|]. rewrite <- Eq. cbn [when app].
    split; [done|]. split; cycle 1.
    { unfold limit_row. cbn [set_h_angle h_min h_max h_angle]. unfold two. fold b. destruct b; by split. }
    unfold slots_of. assert (h_has_limit (set_h_angle h (h_angle h ⊕ g_s (g e 3) 0)) = true) as -> by done. done. }
  destruct (joint_impulses_bounded e 3 c cfg qs cs' k s' j q 5 Hirr He Hc ltac:(lia) Hp Hstep Hq Hs)
    as (c' & H1 & H2 & H3).
  { rewrite Hl, Hu. by destruct b. }
  exists c'. split; [done|]. rewrite Hl in H2. rewrite Hu in H3. by destruct b.
Qed.

(** The spring of a hinge never pushes harder than its deflection, stiffness and
    time step give, and only that way. *)
Theorem hinge_spring_bounded e c h cs' k s' :
  irreflexive N → (∀ x y : N, (x <? y) = true → (y <? x) = false) →
  e ∈ es → cs !! (e, 3) = Some c → c_cfg c = KHinge h → (n0 <? h_stiff h) = true →
  island_step es (S n) dt g bodies cs s = Ok (cs', k, s') →
  let p := h_stiff h ⊙ ((h_angle h ⊕ g_s (g e 3) 0) ⊖ h_rest h) ⊙ dt in
  ∃ c', cs' !! (e, 3) = Some c' ∧
    if n0 <? p then le n0 (fld (c_imp c') 7) ∧ le (fld (c_imp c') 7) p
    else le p (fld (c_imp c') 7) ∧ le (fld (c_imp c') 7) n0.
Proof.
  intros Hirr Hasym He Hc Ho Hst Hstep p.
  assert (∃ cfg qs q j, prepare (c_cfg c) (c_imp c) dt (g e 3) (bodies (c_a c)) (bodies (c_b c)) = Ok (cfg, qs)
    ∧ qs !! j = Some q ∧ slots_of cfg true !! j = Some 7
    ∧ q_lo q = fmin p n0 ∧ q_up q = fmax n0 p) as (cfg & qs & q & j & Hp & Hq & Hs & Hl & Hu).
  { rewrite Ho. cbn [prepare].
    destruct (prep_hinge h (c_imp c) dt (g e 3)) as [h' qs] eqn:E.
    unfold prep_hinge in E. apply pair_inv in E as [Eh Eq].
    assert (h_has_spring h = true) as Hsp by done. rewrite Hsp, orb_true_r in Eh, Eq.
    set (h1 := set_h_angle h (h_angle h ⊕ g_s (g e 3) 0)) in *.
    assert (h_has_limit h1 = h_has_limit h ∧ h_has_spring h1 = true
            ∧ h_has_torque h1 = h_has_torque h ∧ h_has_bump h1 = h_has_bump h) as (E1 & E2 & E3 & E4) by done.
    rewrite <- Eh. exists (KHinge h1), qs. rewrite <- Eq, E4. clear Eq Eh qs h'.
    exists (spring_row (g e 3) (c_imp c) 7 p).
    unfold slots_of. rewrite E1, E2, E3, E4.
    destruct (h_has_limit h), (h_has_torque h), (h_has_bump h); cbn [andb when app];
      try destruct (nonzero _); cbn [andb when app];
      first [by exists 5 | by exists 6 | by exists 7 | by exists 8]. }
  destruct (joint_impulses_bounded e 3 c cfg qs cs' k s' j q 7 Hirr He Hc ltac:(lia) Hp Hstep Hq Hs)
    as (c' & H1 & H2 & H3).
  { rewrite Hl, Hu. unfold le, fmin, fmax. destruct (n0 <? p) eqn:Ep; auto. }
  exists c'. split; [done|]. rewrite Hl in H2. rewrite Hu in H3. unfold fmin, fmax in H2, H3. by destruct (n0 <? p).
Qed.

End C39.

(** * C48: velocities are what the impulses make of them. *)
Section C48.
Context {N : num}.
Notation T := (nt N).
Variables (es : list nat) (n : nat) (dt : nt N) (g : nat → nat → geo N) (bodies : nat → body N).
Variables (cs : consmap N) (s : store N).
Hypothesis fits : island_fits es dt g bodies cs.
Let L := island_rows es dt g bodies cs.
Let R := own_iterate n L (own_warm L s).

(** Each body's velocity changes by inverse mass times Jacobian times impulse,
    summed over the rows with the impulses the step ends with. *)
Theorem velocities_match_impulses cs' k s' :
  exact N → island_step es n dt g bodies cs s = Ok (cs', k, s') →
  ∀ p, s_dv s' p = vadd (s_dv s p) (total_lin (fst R) p)
     ∧ s_dw s' p = vadd (s_dw s p) (total_ang (fst R) p).
Proof.
  intros ex Hstep p.
  destruct (island_step_ok dt g bodies es n cs s fits) as (cs1 & k1 & E & _).
  rewrite Hstep in E. injection E as -> -> ->. apply (own_velocity N ex).
Qed.

(** Linear momentum of the bodies is conserved. *)
Theorem momentum_conserved cs' k s' m ps :
  exact N → island_step es n dt g bodies cs s = Ok (cs', k, s') →
  NoDup ps → Forall (λ x, internal N m ps (snd x)) L →
  momentum m ps (s_dv s') = momentum m ps (s_dv s).
Proof.
  intros ex Hstep Hnd HL.
  destruct (island_step_ok dt g bodies es n cs s fits) as (cs1 & k1 & E & _).
  rewrite Hstep in E. injection E as -> -> ->. by apply (own_momentum N ex).
Qed.

(** Bodies that are not procedural do not move. *)
Theorem fixed_bodies_stay cs' k s' :
  exact N → island_step es n dt g bodies cs s = Ok (cs', k, s') →
  (∀ i, b_ptr (bodies i) = None → b_im (bodies i) = n0 ∧ b_I (bodies i) = mzero) →
  s_dv s' None = s_dv s None ∧ s_dw s' None = s_dw s None.
Proof.
  intros ex Hstep Hb.
  destruct (velocities_match_impulses cs' k s' ex Hstep None) as [-> ->].
  assert (Forall (λ x, (r_A (e_row (snd x)) = None → r_imA (e_row (snd x)) = n0 ∧ r_IA (e_row (snd x)) = mzero)
     ∧ (r_B (e_row (snd x)) = None → r_imB (e_row (snd x)) = n0 ∧ r_IB (e_row (snd x)) = mzero)) (fst R)) as HR.
  { pose proof (own_iterate_same n L (own_warm L s)) as Hs. fold R in Hs.
    assert (Forall (λ x, (r_A (e_row (snd x)) = None → r_imA (e_row (snd x)) = n0 ∧ r_IA (e_row (snd x)) = mzero)
      ∧ (r_B (e_row (snd x)) = None → r_imB (e_row (snd x)) = n0 ∧ r_IB (e_row (snd x)) = mzero)) L) as HL.
    { unfold L. rewrite island_rows_flat. apply Forall_forall. intros x Hx.
      unfold flat in Hx. apply elem_concat in Hx as (l & (b & -> & Hin)%elem_of_list_fmap & Hx).
      apply elem_all_blocks in Hin as (e & t & c & _ & _ & _ & ->). cbn [fst snd] in Hx.
      apply elem_of_list_fmap in Hx as (y & -> & Hy). cbn [snd].
      unfold elems_of, prepared in Hy. cbn [fst snd] in Hy.
      destruct (prepare _ _ _ _ _ _) as [[cfg qs]| | |]; try (by apply elem_of_nil in Hy).
      apply elem_of_list_fmap in Hy as (q & -> & _). cbn. split; apply Hb. }
    clear - Hs HL. induction Hs as [|x y l l' [_ [H _]] _ IH]; [constructor|].
    apply Forall_cons in HL as [H1 H2]. constructor; [|by apply IH].
    unfold same_row, set_imp in H. injection H as _ _ _ _ _ <- <- <- <- <- <-. done. }
  clearbody R. clear - ex HR.
  assert (total_lin (fst R) None = vzero ∧ total_ang (fst R) None = vzero) as [-> ->];
    [|split; apply (vadd_0_r N ex)].
  induction HR as [|x l [HA HB] _ [IH1 IH2]]; [done|].
  rewrite total_lin_cons, total_ang_cons, IH1, IH2, !(vadd_0_r N ex).
  unfold elem_lin, elem_ang. set (r := e_row (snd x)) in *.
  assert (∀ y, push_lin r None y = vzero ∧ push_ang r None y = vzero) as Hz.
  { intros y. assert (∀ v i, vsmul (svmul (n0 (n:=N)) v) i = vzero ∧ vsmul (mvmul mzero v) i = vzero) as Z.
    { intros v i. apply (zero_push N ex). }
    unfold push_lin, push_ang.
    destruct (decide (None = r_A r)) as [EA|_], (decide (None = r_B r)) as [EB|_];
      try (destruct (HA (eq_sym EA)) as [-> ->]); try (destruct (HB (eq_sym EB)) as [-> ->]);
      rewrite ?(proj1 (Z _ _)), ?(proj2 (Z _ _)); split; apply (vadd_0_r N ex). }
  induction (pushes (snd x)) as [|y l' IH]; [done|]. cbn [map]. rewrite !vsum_cons.
  destruct (Hz y) as [-> ->]. destruct IH as [-> ->]. split; apply (vadd_0_r N ex).
Qed.

End C48.

(** * C49: solving one row. *)
(** After a row is solved and applied its impulse is within its limits; unless
    it is at the upper limit the relative speed is not below its target, and
    unless it is at the lower limit not above: a contact (limits 0 and
    infinity) does not approach, and pulls nothing. *)
Theorem solved_row_complementary {N : num} (r : row N) s :
  exact N → r_A r ≠ r_B r → (n0 <? inv_mass N r) = true → r_eff r = n1 ⊘ inv_mass N r →
  le (r_lo r) (r_up r) →
  let r' := fst (solve_row r s) in
  let v := speed N r (apply_row (snd (solve_row r s)) r s) in
  le (r_lo r) (r_imp r') ∧ le (r_imp r') (r_up r)
  ∧ ((r_imp r' <? r_up r) = true → le (r_rhs r) v)
  ∧ ((r_lo r <? r_imp r') = true → le v (r_rhs r)).
Proof. intros ex. by apply (row_complementary N ex). Qed.

(** A row alone: one iteration solves it, the others change nothing. *)
Theorem lone_row_converges {N : num} (r : row N) s n :
  exact N → r_A r ≠ r_B r → (n0 <? inv_mass N r) = true → r_eff r = n1 ⊘ inv_mass N r →
  let a := iterate_cache 1 (Cache [r] [1] [Flags false false false] [] [] []) s in
  let b := iterate_cache (S n) (Cache [r] [1] [Flags false false false] [] [] []) s in
  ∃ k sa sb, a = Ok (k, sa) ∧ b = Ok (k, sb)
    ∧ ∀ p, s_dv sb p = s_dv sa p ∧ s_dw sb p = s_dw sa p.
Proof. intros ex. by apply (lone_row N ex). Qed.

(** * C50: clearing the applied impulses. *)
Section C50.
Context {N : num}.

(** With at most sixteen impulse fields in use, clearing succeeds, leaves the
    configuration alone, and the next step starts from zero impulses, unless
    the constraint is a hinge whose bump stop engages in between. *)
Theorem cleared_starts_from_zero (c : con N) :
  length (c_imp c) = slots (c_cfg c) → length (slots_of (c_cfg c) true) ≤ 16 →
  ∃ c', clear_impulses c = Ok c'
    ∧ c_cfg c' = c_cfg c ∧ c_a c' = c_a c ∧ c_b c' = c_b c
    ∧ length (c_imp c') = length (c_imp c)
    ∧ ∀ dt g A B cfg qs,
        prepare (c_cfg c') (c_imp c') dt g A B = Ok (cfg, qs) →
        match c_cfg c with KHinge h => h_has_bump h = false | _ => True end →
        Forall (λ x, x = n0) (row_values qs).
Proof.
  intros Hlen H16. unfold clear_impulses. rewrite store_puts.
  destruct (puts_ok (slots_of (c_cfg c) true) (c_imp c) (replicate 16 n0))
    as (imps & E & Hl & Hm & _).
  - apply slots_of_nodup.
  - intros i Hi. rewrite Hlen. by eapply slots_of_lt.
  - by rewrite replicate_length.
  - rewrite E. cbn [mbind res_bind fst]. eexists. split; [done|]. cbn [c_cfg c_a c_b c_imp].
    split; [done|]. split; [done|]. split; [done|]. split; [done|].
    intros dt g A B cfg qs Hp Hb. rewrite (prepare_values _ _ _ _ _ _ _ _ Hp).
    assert (∀ i, i ∈ slots_of cfg (g_spin g) → i ∈ slots_of (c_cfg c) true) as Hsub.
    { destruct (prepare_kept _ _ _ _ _ _ _ _ Hp) as (_ & K & Hk).
      specialize (Hk (g_spin g)).
      destruct (c_cfg c) as [| |d st da|h|l0 l1 l2 a0 a1 a2|v|bss bsl|t|o|o x] eqn:Ec.
      4: {
        unfold prepare in Hp. destruct (prep_hinge h imps dt g) as [h' qs'] eqn:Eh.
        injection Hp as <- <-. unfold prep_hinge in Eh. apply pair_inv in Eh as [Eh _].
        assert (h_has_limit h' = h_has_limit h ∧ h_has_spring h' = h_has_spring h
                ∧ h_has_torque h' = h_has_torque h ∧ h_has_bump h' = h_has_bump h) as (E1 & E2 & E3 & E4).
        { rewrite <- Eh. by destruct (h_has_limit h || h_has_spring h). }
        intros i. unfold slots_of. by rewrite E1, E2, E3, E4, Hb. }
      7: { rewrite Hk. intros i. unfold slots_of. rewrite !elem_of_app.
           intros [Hi|Hi]; [by left|right]. destruct (n0 <? t); [|by apply elem_of_nil in Hi].
           destruct (g_spin g); [done|by apply elem_of_nil in Hi]. }
      all: rewrite Hk; done. }
    apply Forall_forall. intros x (i & -> & Hi)%elem_of_list_fmap. apply Hsub in Hi.
    assert (fld imps i ∈ take (length (slots_of (c_cfg c) true)) (replicate 16 (n0 (n:=N)))) as Hin.
    { rewrite <- Hm. by apply elem_of_list_fmap_1. }
    rewrite take_replicate in Hin. by apply elem_of_replicate in Hin as [-> _].
Qed.
End C50.

(** Sides, normals, relevant directions and validation of convex meshes. *)
From Verif Require Import Outcome BoxModel GeoModel NearModel RotSpec RotProofs RayProofs TmeshModel TmeshSpec TmeshProofs TmeshProofs2 CmeshModel CmeshSpec CmeshProofs.
From Coq Require Import Reals Lra Psatz.
Local Open Scope nat_scope.

(** Numbers of the sides *)
Fixpoint keys (f : nat) (faces : list (nat * nat)) : list (nat * nat) :=
  match faces with [] => [] | (_, count) :: faces => map (pair f) (seq 0 count) ++ keys (S f) faces end.
Definition side_at (ix : list nat) (n : nat) (faces : list (nat * nat)) (fj : nat * nat) (x : side) : Prop :=
  ∃ first count, n <= fj.1 ∧ faces !! (fj.1 - n) = Some (first, count) ∧ fj.2 < count ∧ x.1.1 = fj.1 ∧
    ix !! (first + fj.2) = Some x.1.2 ∧ ix !! (first + (fj.2 + 1) mod count) = Some x.2.
Lemma csides_keys ix faces : ∀ n l, csides ix n faces = Ok l → Forall2 (side_at ix n faces) (keys n faces) l.
Proof.
  induction faces as [|[first count] faces IH]; intros n l H; cbn [csides keys] in *.
  - injection H as <-. constructor.
  - apply bind_ok in H as (l1 & H1 & H). apply bind_ok in H as (l2 & H2 & [= <-]). apply Forall2_app.
    + apply res_map_ok in H1. change (map ?f ?l) with (f <$> l). apply Forall2_fmap_l.
      apply Forall2_same_length_lookup. split; [by eapply Forall2_length|].
      intros k j x Hj Hx. pose proof (Forall2_lookup_lr _ _ _ _ _ _ H1 Hj Hx) as E.
      apply lookup_seq in Hj as [-> Hlt]. unfold cside in E. apply bind_ok in E as (i0 & E0 & E). apply bind_ok in E as (i1 & E1 & [= <-]).
      apply at_ok in E0, E1. exists first, count. simpl. rewrite Nat.sub_diag. split_and!; try done.
    + eapply Forall2_impl; [by apply IH|]. intros [f j] x (fi & c & A & B & C). exists fi, c. simpl in *. split; [lia|].
      replace (f - n) with (S (f - S n)) by lia. done.
Qed.
Lemma keys_elem faces : ∀ n f j, (f, j) ∈ keys n faces ↔ n <= f ∧ ∃ first count, faces !! (f - n) = Some (first, count) ∧ j < count.
Proof.
  induction faces as [|[fi c] faces IH]; intros n f j; simpl keys.
  - split; [by intros ?%elem_of_nil|]. intros (_ & ? & ? & ? & _). done.
  - rewrite elem_of_app, IH. change (map ?f ?l) with (f <$> l). rewrite elem_of_list_fmap. split.
    + intros [(y & [= -> ->] & Hy%elem_of_seq)|(A & fi' & c' & B & C)].
      * split; [lia|]. rewrite Nat.sub_diag. exists fi, c. split; [done|lia].
      * split; [lia|]. replace (f - n) with (S (f - S n)) by lia. by exists fi', c'.
    + intros (A & fi' & c' & B & C). destruct (decide (f = n)) as [->|].
      * left. rewrite Nat.sub_diag in B. injection B as <- <-. exists j. split; [done|]. apply elem_of_seq. lia.
      * right. split; [lia|]. replace (f - n) with (S (f - S n)) in B by lia. by exists fi', c'.
Qed.
Lemma keys_nodup faces : ∀ n, NoDup (keys n faces).
Proof.
  induction faces as [|[fi c] faces IH]; intros n; simpl; [constructor|]. apply NoDup_app. split_and!.
  - change (map ?f ?l) with (f <$> l). apply NoDup_fmap_2; [|apply NoDup_seq]. by intros a b [= ->].
  - intros [f j] H1 H2%keys_elem. change (map ?f ?l) with (f <$> l) in H1. apply elem_of_list_fmap in H1 as (y & [= -> ->] & _). lia.
  - apply IH.
Qed.
Lemma side_at_is m fj x : side_at (c_indices m) 0 (c_faces m) fj x ↔ is_side m fj.1 fj.2 x.1.2 x.2 ∧ x.1.1 = fj.1.
Proof.
  unfold side_at, is_side, corner. rewrite Nat.sub_0_r. split.
  - intros (fi & c & _ & A & B & C & D & E). split; [|done]. exists fi, c. split_and!; try done.
    + exists fi, c. split; [done|]. by rewrite Nat.mod_small.
    + by exists fi, c.
  - intros [(fi & c & A & B & (fi1 & c1 & A1 & C) & (fi2 & c2 & A2 & D)) E].
    rewrite A in A1, A2. injection A1 as <- <-. injection A2 as <- <-. rewrite Nat.mod_small in C by done.
    exists fi, c. split_and!; try done. lia.
Qed.
Lemma csides_elem m l f i0 i1 : csides (c_indices m) 0 (c_faces m) = Ok l →
  (f, i0, i1) ∈ l ↔ ∃ j, is_side m f j i0 i1.
Proof.
  intros H. pose proof (csides_keys _ _ _ _ H) as F. split.
  - intros [n Hn]%elem_of_list_lookup. destruct (Forall2_lookup_r _ _ _ _ _ F Hn) as ([g j] & _ & [A B]%side_at_is).
    simpl in *. subst. by exists j.
  - intros [j S]. pose proof S as (fi & c & A & B & _).
    assert (K : (f, j) ∈ keys 0 (c_faces m)).
    { apply keys_elem. split; [lia|]. rewrite Nat.sub_0_r. by exists fi, c. }
    apply elem_of_list_lookup in K as [n Hn]. destruct (Forall2_lookup_l _ _ _ _ _ F Hn) as ([[g j0] j1] & Hx & [C D]%side_at_is).
    simpl in *. subst g. pose proof (elem_of_list_lookup_2 _ _ _ Hx) as Hm.
      destruct C as (fi' & c' & A' & B' & (x1 & y1 & X1 & Y1) & (x2 & y2 & X2 & Y2)).
      destruct S as (fi2 & c2 & A2 & B2 & (z1 & w1 & Z1 & W1) & (z2 & w2 & Z2 & W2)).
      congruence.
Qed.
(** Sides that differ are counted separately. *)
Lemma faces_with_positions l q (ps : list nat) : NoDup ps →
  (∀ n, n ∈ ps → ∃ f i0 i1, l !! n = Some (f, i0, i1) ∧ same_ends q (i0, i1)) → length ps <= length (faces_with l q).
Proof.
  revert ps. induction l as [|[[f i0] i1] l IH] using rev_ind; intros ps N H.
  - destruct ps as [|p ps]; [simpl; lia|]. destruct (H p) as (? & ? & ? & E & _); [by left|]. done.
  - rewrite faces_with_app, app_length.
    set (ps' := filter (λ n, n ≠ length l) ps).
    assert (L1 : length ps' <= length (faces_with l q)).
    { apply IH; [by apply NoDup_filter|]. intros n [Hn Hp]%elem_of_list_filter. destruct (H n Hp) as (g & j0 & j1 & E & S).
      exists g, j0, j1. split; [|done]. apply lookup_app_Some in E as [E|[Hl E]]; [done|].
      apply list_lookup_singleton_Some in E as [E _]. lia. }
    destruct (decide (length l ∈ ps)) as [Hin|Hout].
    + assert (length ps <= S (length ps')).
      { change (S (length ps')) with (length (length l :: ps')). apply submseteq_length, NoDup_submseteq; [done|].
        intros n Hn. destruct (decide (n = length l)) as [->|]; [by left|right]. by apply elem_of_list_filter. }
      destruct (H _ Hin) as (g & j0 & j1 & E & S). rewrite lookup_app_r, Nat.sub_diag in E by lia. injection E as -> -> ->.
      unfold faces_with at 2. simpl. rewrite decide_True by done. simpl. lia.
    + assert (length ps <= length ps'); [|lia]. apply submseteq_length, NoDup_submseteq; [done|].
      intros n Hn. apply elem_of_list_filter. split; [|done]. by intros ->.
Qed.
Lemma faces_with_keys m l q (ks : list (nat * nat)) : csides (c_indices m) 0 (c_faces m) = Ok l → NoDup ks →
  (∀ f j, (f, j) ∈ ks → ∃ i0 i1, is_side m f j i0 i1 ∧ same_ends q (i0, i1)) → length ks <= length (faces_with l q).
Proof.
  intros H N K. pose proof (csides_keys _ _ _ _ H) as F.
  assert (P : ∃ ps, Forall2 (λ (k : nat * nat) n, keys 0 (c_faces m) !! n = Some k) ks ps).
  { clear N. induction ks as [|[f j] ks IH]; [exists []; constructor|].
    destruct IH as [ps Hps]; [intros g i Hg; apply K; by right|]. destruct (K f j) as (i0 & i1 & (fi & c & A & B & _) & _); [by left|].
    assert (E : (f, j) ∈ keys 0 (c_faces m)).
    { apply keys_elem. split; [lia|]. rewrite Nat.sub_0_r. by exists fi, c. }
    apply elem_of_list_lookup in E as [n Hn]. exists (n :: ps). by constructor. }
  destruct P as [ps Hps]. rewrite (Forall2_length _ _ _ Hps). apply faces_with_positions.
  - apply NoDup_alt. intros a b n Ha Hb.
    destruct (Forall2_lookup_r _ _ _ _ _ Hps Ha) as (ka & Ka & Ea). destruct (Forall2_lookup_r _ _ _ _ _ Hps Hb) as (kb & Kb & Eb).
    rewrite Ea in Eb. injection Eb as <-. by eapply (NoDup_lookup ks).
  - intros n [a Ha]%elem_of_list_lookup. destruct (Forall2_lookup_r _ _ _ _ _ Hps Ha) as ([f j] & Ka & Ea).
    destruct (K f j) as (i0 & i1 & S & E); [by eapply elem_of_list_lookup_2|].
    destruct (Forall2_lookup_l _ _ _ _ _ F Ea) as ([[g j0] j1] & Hx & Sx). apply side_at_is in Sx as [C D]. simpl in *. subst g.
    exists f, i0, i1. split; [|done].
    destruct C as (fi' & c' & A' & B' & (x1 & y1 & X1 & Y1) & (x2 & y2 & X2 & Y2)).
    destruct S as (fi2 & c2 & A2 & B2 & (z1 & w1 & Z1 & W1) & (z2 & w2 & Z2 & W2)). congruence.
Qed.
Lemma ends_nodup v es : (∀ k k' q q', es !! k = Some q → es !! k' = Some q' → same_ends q q' → k = k') → NoDup (ends_of v es).
Proof.
  induction es as [|e es IH]; intros U; [constructor|]. unfold ends_of. simpl.
  assert (IH' : NoDup (ends_of v es)).
  { apply IH. intros k k' q q' Hk Hk' E. assert (S k = S k') by (by eapply U). lia. }
  destruct (other_end v e) as [w|] eqn:Ee; [|done]. constructor; [|done].
  intros (q & Hq & Eq)%ends_of_elem. apply elem_of_list_lookup in Hq as [k Hk].
  assert (We : w ∈ ends_of v [e]) by (unfold ends_of; simpl; rewrite Ee; by left).
  apply ends_of_elem in We as (e' & He' & Ee'). apply elem_of_list_singleton in He' as ->.
  assert (0 = S k); [|done]. eapply (U 0 (S k) e q); [done|done|]. eapply ends_trans; [exact Ee'|by apply ends_sym].
Qed.
Lemma cupdate_parts m m' : cupdate m = Ok m' →
  c_vertices m' = c_vertices m ∧ c_indices m' = c_indices m ∧ c_faces m' = c_faces m ∧
  Forall2 (λ face n, cface_normal (c_vertices m) (c_indices m) face = Ok n) (c_faces m) (c_normals m') ∧
  (∃ l, csides (c_indices m) 0 (c_faces m) = Ok l ∧ cinv (length (c_vertices m)) l (c_edges m', c_efaces m')) ∧
  (c_start m', c_neighbors m') = add_neighbors (length (c_vertices m)) (c_edges m') (c_start m) (c_neighbors m) ∧
  c_relevant_faces m' = relevant like_normal (c_normals m') (c_relevant_faces m) ∧
  ∃ dirs, Forall2 (λ e d, edge_dir (c_vertices m) e = Ok d) (c_edges m') dirs ∧
    c_relevant_edges m' = relevant like_edge dirs (c_relevant_edges m).
Proof.
  intros H. unfold cupdate in H. apply bind_ok in H as (ns & Hn & H). apply bind_ok in H as (l & Hl & H).
  apply bind_ok in H as ([ps fs] & Hs & H). apply bind_ok in H as (dirs & Hd & [= <-]). simpl in *.
  apply res_map_ok in Hn, Hd. pose proof (cadds_inv (length (c_vertices m)) l [] ([], []) (cinv_init _)) as I.
  rewrite Hs in I. simpl in I. split_and!; try done; eauto. by destruct (add_neighbors _ _ _ _).
Qed.

Local Open Scope R_scope.
Lemma try_unit v n : try_normalize v = Some n → tiny < lsq v ∧ n = div3 v (len v) ∧ unit3 n.
Proof.
  unfold try_normalize. destruct (Rlt_dec tiny (lsq v)) as [H|]; [|done]. intros [= <-]. pose proof tiny_pos.
  assert (L : 0 < len v) by (apply sqrt_lt_R0; lra).
  assert (E : scl (1 / sqrt (lsq v)) v = div3 v (len v)).
  { change (sqrt (lsq v)) with (len v). apply v3_eq; unfold scl, div3; cbn [vx vy vz]; field; lra. }
  rewrite E. split_and!; try done. unfold unit3.
  transitivity (lsq v / (len v * len v)); [unfold lsq, dot3, div3; cbn [vx vy vz]; field; lra|].
  rewrite len_sq. field. rewrite <- len_sq. nra.
Qed.
Lemma second_side_ok vs ix first count e js : ∀ n, second_side vs ix first count e js = Ok n →
  let X := λ j x, ∃ i2 i3 v2 v3, ix !! (first + j)%nat = Some i2 ∧ ix !! (first + (j + 1) mod count)%nat = Some i3 ∧
    vs !! i2 = Some v2 ∧ vs !! i3 = Some v3 ∧ x = cross3 e (sub3 v3 v2) in
  (∃ k j x, js !! k = Some j ∧ X j x ∧ tiny < lsq x ∧ n = div3 x (len x) ∧ unit3 n ∧
     ∀ k' j' x', (k' < k)%nat → js !! k' = Some j' → X j' x' → lsq x' <= tiny) ∨
  (n = ey ∧ ∀ j x, j ∈ js → X j x → lsq x <= tiny).
Proof.
  induction js as [|j js IH]; intros n H X; simpl in H.
  - injection H as <-. right. split; [done|]. intros j x Hj. by apply elem_of_nil in Hj.
  - apply bind_ok in H as (i2 & E2 & H). apply bind_ok in H as (i3 & E3 & H). apply bind_ok in H as (v2 & F2 & H).
    apply bind_ok in H as (v3 & F3 & H). apply at_ok in E2, E3, F2, F3.
    assert (Xj : ∀ x, X j x → x = cross3 e (sub3 v3 v2)).
    { intros x (a & b & va & vb & Ha & Hb & Va & Vb & ->). congruence. }
    destruct (try_normalize (cross3 e (sub3 v3 v2))) as [n'|] eqn:T.
    + injection H as ->. apply try_unit in T as (A & B & C). left. exists 0%nat, j, (cross3 e (sub3 v3 v2)).
      split_and!; try done; [by exists i2, i3, v2, v3|]. intros k'. lia.
    + assert (Hle : lsq (cross3 e (sub3 v3 v2)) <= tiny).
      { unfold try_normalize in T. destruct (Rlt_dec tiny _); [done|]. lra. }
      destruct (IH n H) as [(k & j' & x & A & B & C & D & E & G)|[A B]].
      * left. exists (S k), j', x. split_and!; try done. intros [|k'] j'' x'' Hk Hj HX.
        -- injection Hj as <-. by rewrite (Xj _ HX).
        -- eapply (G k'); [lia|done|done].
      * right. split; [done|]. intros j' x' [->|Hj]%elem_of_cons HX; [by rewrite (Xj _ HX)|by eapply B].
Qed.

(** Relevant directions *)
Lemma relevant_spec like dirs : ∀ n, (n <= length dirs)%nat → (∀ i d, dirs !! i = Some d → like d d = true) →
  let r := foldl (add_relevant like dirs) [] (seq 0 n) in
  (∀ i, i ∈ r → (i < n)%nat) ∧
  (∀ i d, (i < n)%nat → dirs !! i = Some d → ∃ j d', j ∈ r ∧ dirs !! j = Some d' ∧ like d d' = true) ∧
  (∀ i j d d', i ∈ r → j ∈ r → (j < i)%nat → dirs !! i = Some d → dirs !! j = Some d' → like d d' = false) ∧ NoDup r.
Proof.
  induction n as [|n IH]; intros Hn R r.
  - subst r. simpl. split_and!; [by intros i ?%elem_of_nil|intros; lia|by intros i j d d' ?%elem_of_nil|constructor].
  - destruct (IH ltac:(lia) R) as (A & B & C & D). subst r. rewrite seq_S, foldl_app. cbn [foldl]. rewrite Nat.add_0_l.
    set (r := foldl _ [] (seq 0 n)) in *. destruct (lookup_lt_is_Some_2 dirs n ltac:(lia)) as [dn Hdn].
    unfold add_relevant. rewrite Hdn.
    destruct (existsb _ r) eqn:E.
    + apply existsb_exists in E as (j & Hj & Ej). apply elem_of_list_In in Hj. split_and!.
      * intros i Hi. specialize (A i Hi). lia.
      * intros i d Hi Hd. destruct (decide (i = n)) as [->|]; [|exact (B i d ltac:(lia) Hd)].
        rewrite Hdn in Hd. injection Hd as <-. destruct (dirs !! j) as [d'|] eqn:Hd'; [|done]. by exists j, d'.
      * done.
      * done.
    + assert (E' : ∀ j d', j ∈ r → dirs !! j = Some d' → like dn d' = false).
      { intros j d' Hj Hd'. destruct (like dn d') eqn:L; [|done]. exfalso.
        assert (existsb (λ j, match dirs !! j with Some d' => like dn d' | None => false end) r = true); [|congruence].
        apply existsb_exists. exists j. split; [by apply elem_of_list_In|]. by rewrite Hd'. }
      split_and!.
      * intros i [Hi|Hi%elem_of_list_singleton]%elem_of_app; [specialize (A i Hi)|]; lia.
      * intros i d Hi Hd. destruct (decide (i = n)) as [->|].
        -- exists n, d. split_and!; [apply elem_of_app; right; by apply elem_of_list_singleton|done|by eapply R].
        -- destruct (B i d ltac:(lia) Hd) as (j & d' & Hj & X). exists j, d'. split; [apply elem_of_app; by left|done].
      * intros i j d d' Hi Hj Hlt Hd Hd'. apply elem_of_app in Hi as [Hi|Hi%elem_of_list_singleton], Hj as [Hj|Hj%elem_of_list_singleton].
        -- exact (C i j d d' Hi Hj Hlt Hd Hd').
        -- specialize (A i Hi). lia.
        -- subst i. rewrite Hdn in Hd. injection Hd as <-. exact (E' j d' Hj Hd').
        -- lia.
      * apply NoDup_app. split_and!; [done| |apply NoDup_singleton]. intros i Hi ->%elem_of_list_singleton. specialize (A n Hi). lia.
Qed.

Lemma res_all_ok {A} (f : A → res bool) l : ∀ b, res_all f l = Ok b → (b = true ↔ ∀ x c, x ∈ l → f x = Ok c → c = true).
Proof.
  induction l as [|x l IH]; intros b H; simpl in H.
  - injection H as <-. split; [intros _ x c Hx; by apply elem_of_nil in Hx|done].
  - apply bind_ok in H as (c & Hc & H). destruct c.
    + rewrite (IH b H). split; [intros G y d [->|Hy]%elem_of_cons Hd; [congruence|by eapply G]|intros G y d Hy; apply G; by right].
    + injection H as <-. split; [done|]. intros G. exact (G x false ltac:(left) Hc).
Qed.
Lemma res_all_true {A} (f : A → res bool) l : res_all f l = Ok true → ∀ x, x ∈ l → f x = Ok true.
Proof.
  induction l as [|x l IH]; intros H y Hy; [by apply elem_of_nil in Hy|]. simpl in H.
  apply bind_ok in H as (c & Hc & H). destruct c; [|done]. apply elem_of_cons in Hy as [->|Hy]; [done|by apply IH].
Qed.
Lemma res_all_false {A} (f : A → res bool) l : res_all f l = Ok false → ∃ x, x ∈ l ∧ f x = Ok false.
Proof.
  induction l as [|x l IH]; intros H; [done|]. simpl in H.
  apply bind_ok in H as (c & Hc & H). destruct c.
  - destruct (IH H) as (y & Hy & E). exists y. split; [by right|done].
  - exists x. split; [by left|done].
Qed.

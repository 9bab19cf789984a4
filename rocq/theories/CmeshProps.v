(** Properties of convex meshes: C97-C98. *)
From Verif Require Import Outcome BoxModel GeoModel NearModel RotSpec RotProofs RayProofs TmeshModel TmeshSpec TmeshProofs TmeshProofs2 CmeshModel CmeshSpec CmeshProofs CmeshProofs2.
From Coq Require Import Reals Lra Psatz.
Local Open Scope nat_scope.

(** Three sides that differ have the same ends. *)
Definition three_alike (m : cmesh) : Prop := ∃ q ks, NoDup ks ∧ length ks = 3 ∧
  ∀ f j, (f, j) ∈ ks → ∃ i0 i1, is_side m f j i0 i1 ∧ same_ends q (i0, i1).

(** ** C97: edges and neighbors *)
Lemma positions_of l q : ∃ ps, NoDup ps ∧ length ps = length (faces_with l q) ∧
  ∀ n, n ∈ ps → ∃ f i0 i1, l !! n = Some (f, i0, i1) ∧ same_ends q (i0, i1).
Proof.
  induction l as [|[[f i0] i1] l IH] using rev_ind.
  - exists []. split_and!; [constructor|done|]. by intros n ?%elem_of_nil.
  - destruct IH as (ps & N & L & H).
    assert (H' : ∀ n, n ∈ ps → ∃ g j0 j1, (l ++ [(f, i0, i1)]) !! n = Some (g, j0, j1) ∧ same_ends q (j0, j1)).
    { intros n Hn. destruct (H n Hn) as (g & j0 & j1 & E & S). exists g, j0, j1. split; [by apply lookup_app_l_Some|done]. }
    rewrite faces_with_app, app_length. unfold faces_with at 2. simpl. destruct (decide (same_ends q (i0, i1))) as [S|S]; simpl.
    + exists (length l :: ps). split_and!.
      * constructor; [|done]. intros Hn. destruct (H _ Hn) as (g & j0 & j1 & E & _). apply lookup_lt_Some in E. lia.
      * simpl. lia.
      * intros n [->|Hn]%elem_of_cons; [|by apply H']. exists f, i0, i1. split; [|done].
        rewrite lookup_app_r by lia. by rewrite Nat.sub_diag.
    + exists ps. split_and!; [done|lia|done].
Qed.
Lemma keys_of m l q : csides (c_indices m) 0 (c_faces m) = Ok l → ∃ ks, NoDup ks ∧ length ks = length (faces_with l q) ∧
  ∀ f j, (f, j) ∈ ks → ∃ i0 i1, is_side m f j i0 i1 ∧ same_ends q (i0, i1).
Proof.
  intros H. pose proof (csides_keys _ _ _ _ H) as F. destruct (positions_of l q) as (ps & N & L & P). rewrite <- L. clear L.
  induction ps as [|n ps IH]; [exists []; split_and!; [constructor|done|by intros f j ?%elem_of_nil]|].
  assert (∀ ps, (∀ n, n ∈ ps → ∃ f i0 i1, l !! n = Some (f, i0, i1) ∧ same_ends q (i0, i1)) →
    ∃ ks, Forall2 (λ (k : nat * nat) n, keys 0 (c_faces m) !! n = Some k) ks ps) as K.
  { clear -F. intros ps. induction ps as [|n ps IH]; intros P; [exists []; constructor|].
    destruct IH as [ks Hks]; [intros; apply P; by right|]. destruct (P n) as (f & i0 & i1 & E & _); [by left|].
    destruct (Forall2_lookup_r _ _ _ _ _ F E) as (k & Hk & _). exists (k :: ks). by constructor. }
  destruct (K (n :: ps) P) as [ks Hks]. exists ks. split_and!.
  - apply NoDup_alt. intros a b k Ha Hb.
    destruct (Forall2_lookup_l _ _ _ _ _ Hks Ha) as (na & Na & Ea). destruct (Forall2_lookup_l _ _ _ _ _ Hks Hb) as (nb & Nb & Eb).
    assert (na = nb) as <- by (by eapply (NoDup_lookup _ _ _ _ (keys_nodup (c_faces m) 0))). by eapply (NoDup_lookup (n :: ps)).
  - by eapply Forall2_length.
  - intros f j [a Ha]%elem_of_list_lookup. destruct (Forall2_lookup_l _ _ _ _ _ Hks Ha) as (na & Na & Ea).
    destruct (P na) as (g & i0 & i1 & E & S); [by eapply elem_of_list_lookup_2|].
    pose proof (Forall2_lookup_lr _ _ _ _ _ _ F Ea E) as [A B]%side_at_is. simpl in *. subst g. eauto.
Qed.

(** Calculated edges: one per pair of ends that some side has, directed
    along a side of its first face, with the faces of its one or two sides. *)
Theorem C97_edges m m' : cupdate m = Ok m' →
  ¬ three_alike m ∧
  (∀ f j i0 i1, is_side m f j i0 i1 → ∃ k q, c_edges m' !! k = Some q ∧ same_ends q (i0, i1)) ∧
  (∀ k k' q q', c_edges m' !! k = Some q → c_edges m' !! k' = Some q' → same_ends q q' → k = k') ∧
  length (c_efaces m') = length (c_edges m') ∧
  ∀ k q a b, c_edges m' !! k = Some q → c_efaces m' !! k = Some (a, b) →
    (∃ j, is_side m a j q.1 q.2) ∧
    (∀ c, b = Some c → ∃ j, is_side m c j q.1 q.2 ∨ is_side m c j q.2 q.1) ∧
    (∀ f j i0 i1, is_side m f j i0 i1 → same_ends q (i0, i1) → f = a ∨ b = Some f) ∧
    (b = None ↔ ∀ f j i0 i1 f' j' i0' i1', is_side m f j i0 i1 → same_ends q (i0, i1) →
       is_side m f' j' i0' i1' → same_ends q (i0', i1') → f = f' ∧ j = j').
Proof.
  intros H. apply cupdate_parts in H as (_ & _ & _ & _ & (l & Hl & I) & _).
  destruct I as [I1 I2 I3 I4 I5 I6]. simpl in *.
  assert (Hk : ∀ q f j i0 i1, is_side m f j i0 i1 → same_ends q (i0, i1) → f ∈ faces_with l q).
  { intros q f j i0 i1 S E. apply faces_with_elem. exists i0, i1. split; [|done]. apply (csides_elem m l f i0 i1 Hl). by exists j. }
  assert (Hf : ∀ q f, f ∈ faces_with l q → ∃ j, is_side m f j q.1 q.2 ∨ is_side m f j q.2 q.1).
  { intros q f (i0 & i1 & X & E)%faces_with_elem. apply (csides_elem m l f i0 i1 Hl) in X as [j X]. exists j.
    destruct q as [q0 q1]. destruct E as [[= -> ->]|[= -> ->]]; auto. }
  split_and!.
  - intros (q & ks & N & L & K). pose proof (faces_with_keys m l q ks Hl N K) as Le. rewrite L in Le.
    destruct (faces_with l q) as [|g r] eqn:E; [simpl in Le; lia|].
    assert (G : g ∈ faces_with l q) by (rewrite E; by left). apply faces_with_elem in G as (i0 & i1 & X & Eq).
    destruct (I3 _ _ _ X) as (_ & _ & k & q' & Hk' & E'). destruct (lookup_lt_is_Some_2 (c_efaces m') k) as [[a b] Hab].
    { rewrite I1. by eapply lookup_lt_Some. }
    pose proof (I5 k q' a b Hk' Hab) as F. rewrite (faces_with_ends l q' q) in F.
    { rewrite <- E, F in Le. destruct b; simpl in Le; lia. }
    eapply ends_trans; [exact E'|by apply ends_sym].
  - intros f j i0 i1 S. assert (X : (f, i0, i1) ∈ l) by (apply (csides_elem m l f i0 i1 Hl); by exists j).
    by destruct (I3 _ _ _ X) as (_ & _ & X').
  - done.
  - done.
  - intros k q a b Hq Hab. pose proof (I5 k q a b Hq Hab) as F. split_and!.
    + apply (csides_elem m l a q.1 q.2 Hl). by eapply I6.
    + intros c ->. apply Hf. rewrite F. right. by left.
    + intros f j i0 i1 S E. pose proof (Hk q f j i0 i1 S E) as X. rewrite F in X. apply elem_of_cons in X as [->|X]; [by left|right].
      destruct b as [b|]; simpl in X; [|by apply elem_of_nil in X]. by apply elem_of_list_singleton in X as ->.
    + split.
      * intros -> f j i0 i1 f' j' i0' i1' S E S' E'. destruct (decide ((f, j) = (f', j'))) as [[= -> ->]|N]; [done|]. exfalso.
        assert (2 <= length (faces_with l q)) as Le; [|rewrite F in Le; simpl in Le; lia].
        apply (faces_with_keys m l q [(f, j); (f', j')] Hl).
        -- repeat constructor; [by intros ?%elem_of_list_singleton|by intros ?%elem_of_nil].
        -- intros g i [[= -> ->]|[[= -> ->]|X%elem_of_nil]%elem_of_cons]%elem_of_cons; [eauto..|done].
      * intros U. destruct b as [b|]; [|done]. exfalso. destruct (keys_of m l q Hl) as (ks & N & L & K). rewrite F in L. simpl in L.
        destruct ks as [|[f j] [|[f' j'] ks]]; simpl in L; try lia.
        destruct (K f j) as (i0 & i1 & S & E); [by left|]. destruct (K f' j') as (i0' & i1' & S' & E'); [right; by left|].
        destruct (U _ _ _ _ _ _ _ _ S E S' E') as [-> ->]. apply NoDup_cons in N as [N _]. apply N. by left.
Qed.
Print Assumptions C97_edges.

(** Conditions under which everything is calculated *)
Theorem C97_accepted m :
  (∀ f first count, c_faces m !! f = Some (first, count) → 2 <= count ∧ first + count <= length (c_indices m)) →
  (∀ i, i ∈ c_indices m → i < length (c_vertices m)) →
  ¬ three_alike m →
  (∀ f j i0 i1 v0 v1, is_side m f j i0 i1 → c_vertices m !! i0 = Some v0 → c_vertices m !! i1 = Some v1 →
     (tiny < len (sub3 v1 v0))%R) →
  ∃ m', cupdate m = Ok m'.
Proof.
  intros Hc Hi Ht Hd. unfold cupdate.
  assert (Ix : ∀ i, i < length (c_indices m) → ∃ k v, at_ (c_indices m) i = Ok k ∧ at_ (c_vertices m) k = Ok v).
  { intros i Hlt. destruct (lookup_lt_is_Some_2 _ _ Hlt) as [k Hk].
    destruct (lookup_lt_is_Some_2 (c_vertices m) k) as [v Hv]; [apply Hi; by eapply elem_of_list_lookup_2|].
    exists k, v. unfold at_. by rewrite Hk, Hv. }
  assert (Bd : ∀ f first count j, c_faces m !! f = Some (first, count) → first + j mod count < length (c_indices m)).
  { intros f first count j Hf. destruct (Hc _ _ _ Hf) as [A B]. pose proof (Nat.mod_upper_bound j count ltac:(lia)). lia. }
  destruct (res_map_total (cface_normal (c_vertices m) (c_indices m)) (c_faces m)) as [ns Hns].
  { intros [first count] [f Hf]%elem_of_list_lookup. destruct (Hc _ _ _ Hf) as [A B]. unfold cface_normal.
    destruct (Ix first ltac:(lia)) as (k0 & v0 & E0 & F0), (Ix (first + 1) ltac:(lia)) as (k1 & v1 & E1 & F1).
    rewrite E0. cbn [mbind res_bind]. rewrite E1. cbn [mbind res_bind]. rewrite F0. cbn [mbind res_bind]. rewrite F1. cbn [mbind res_bind].
    assert (Hj : ∀ j, j ∈ seq 1 (count - 1) → j < count) by (intros j Hj%elem_of_seq; lia).
    induction (seq 1 (count - 1)) as [|j js IH]; [by eexists|]. simpl.
    pose proof (Hj j ltac:(left)). destruct (Ix (first + j) ltac:(lia)) as (k2 & v2 & E2 & F2).
    destruct (Ix (first + (j + 1) mod count) ltac:(by eapply Bd)) as (k3 & v3 & E3 & F3).
    rewrite E2. cbn [mbind res_bind]. rewrite E3. cbn [mbind res_bind]. rewrite F2. cbn [mbind res_bind]. rewrite F3. cbn [mbind res_bind].
    destruct (try_normalize _); [by eexists|]. apply IH. intros j' Hj'. apply Hj. by right. }
  rewrite Hns. cbn [mbind res_bind].
  assert (Cs : ∀ faces n, (∀ x, x ∈ faces → x ∈ c_faces m) → ∃ l, csides (c_indices m) n faces = Ok l).
  { induction faces as [|[first count] faces IH]; intros n Hsub; [by eexists|]. cbn [csides].
    assert (Hin : (first, count) ∈ c_faces m) by (apply Hsub; by left). apply elem_of_list_lookup in Hin as [f Hf].
    destruct (res_map_total (cside (c_indices m) n first count) (seq 0 count)) as [l1 H1].
    { intros j Hj%elem_of_seq. destruct (Hc _ _ _ Hf) as [A B]. unfold cside.
      destruct (Ix (first + j) ltac:(lia)) as (k2 & v2 & E2 & F2). destruct (Ix (first + (j + 1) mod count) ltac:(by eapply Bd)) as (k3 & v3 & E3 & F3).
      rewrite E2. cbn [mbind res_bind]. rewrite E3. by eexists. }
    rewrite H1. cbn [mbind res_bind]. destruct (IH (S n)) as [l2 H2]; [intros; apply Hsub; by right|]. rewrite H2. by eexists. }
  destruct (Cs (c_faces m) 0 ltac:(done)) as [l Hl]. rewrite Hl. cbn [mbind res_bind].
  assert (Sd : ∀ f i0 i1, (f, i0, i1) ∈ l → ∃ j, is_side m f j i0 i1) by (intros f i0 i1; by apply csides_elem).
  assert (Rg : ∀ f j i0 i1, is_side m f j i0 i1 → i0 < length (c_vertices m) ∧ i1 < length (c_vertices m)).
  { intros f j i0 i1 (fi & c & _ & _ & (x1 & y1 & _ & X1) & (x2 & y2 & _ & X2)). split; apply Hi; by eapply elem_of_list_lookup_2. }
  pose proof (cadds_inv (length (c_vertices m)) l [] ([], []) (cinv_init _)) as I. simpl in I.
  destruct (cadds (length (c_vertices m)) ([], []) l) as [[ps fs]| | |] eqn:E; simpl in *.
  - destruct (res_map_total (edge_dir (c_vertices m)) ps) as [dirs Hdirs]; [|rewrite Hdirs; by eexists].
    intros [i0 i1] Hq. destruct I as [_ _ _ I4 _ _]. destruct (I4 _ Hq) as [f Hf]. simpl in Hf. destruct (Sd _ _ _ Hf) as [j S].
    destruct (Rg _ _ _ _ S) as [R0 R1]. destruct (lookup_lt_is_Some_2 _ _ R0) as [v0 H0], (lookup_lt_is_Some_2 _ _ R1) as [v1 H1].
    unfold edge_dir, at_. simpl. rewrite H0, H1. cbn [opt_res mbind res_bind]. rewrite normalize_len; [by eexists|]. by eapply Hd.
  - destruct Ht. destruct I as [q Hq]. destruct (keys_of m l q Hl) as (ks & N & L & K). exists q, (take 3 ks). split_and!.
    + rewrite <- (take_drop 3 ks) in N. by apply NoDup_app in N as [N _].
    + rewrite take_length. lia.
    + intros f j Hk. apply K. rewrite <- (take_drop 3 ks). apply elem_of_app. by left.
  - destruct I as (f & i0 & i1 & Hf & N). destruct N. destruct (Sd _ _ _ Hf) as [j S]. by eapply Rg.
  - done.
Qed.
Print Assumptions C97_accepted.

(** The neighbors of a vertex of a fresh mesh are the other ends of its sides,
    each once. *)
Theorem C97_neighbors vs ix faces m' v : cupdate (fresh vs ix faces) = Ok m' → v < length vs →
  ∃ i j, c_start m' !! v = Some i ∧ c_start m' !! S v = Some j ∧ NoDup (slice (c_neighbors m') i j) ∧
    ∀ w, w ∈ slice (c_neighbors m') i j ↔
      ∃ f s, is_side (fresh vs ix faces) f s v w ∨ is_side (fresh vs ix faces) f s w v.
Proof.
  intros H Hv. pose proof (C97_edges _ _ H) as (_ & _ & U & _). apply cupdate_parts in H as (_ & _ & _ & _ & (l & Hl & I) & A & _).
  cbn [c_vertices c_start c_neighbors fresh] in A. rewrite add_neighbors_eq, !app_nil_l in A.
  assert (As : c_start m' = map (λ n, length (all_ends (c_edges m') n)) (seq 0 (S (length vs)))) by exact (f_equal fst A).
  assert (An : c_neighbors m' = all_ends (c_edges m') (length vs)) by exact (f_equal snd A).
  assert (G : ∀ k, k < S (length vs) → c_start m' !! k = Some (length (all_ends (c_edges m') k))).
  { intros k Hk. rewrite As. change (map ?f ?l) with (f <$> l). by rewrite list_lookup_fmap, lookup_seq_lt. }
  pose proof (neighbors_between (length vs) (c_edges m') v (length (all_ends (c_edges m') v)) (length (all_ends (c_edges m') (S v))) Hv) as B.
  rewrite add_neighbors_eq, !app_nil_l, <- As, <- An in B. specialize (B (G v ltac:(lia)) (G (S v) ltac:(lia))).
  exists (length (all_ends (c_edges m') v)), (length (all_ends (c_edges m') (S v))). rewrite B.
  split_and!; [apply G; lia|apply G; lia|by apply ends_nodup|].
  intros w. rewrite ends_of_elem. destruct I as [_ _ I3 I4 _ _]. simpl in *. split.
  - intros ([q0 q1] & Hq & E). destruct (I4 _ Hq) as [f Hf]. apply (csides_elem (fresh vs ix faces) l _ _ _ Hl) in Hf as [s Hs].
    exists f, s. simpl in Hs. destruct E as [[= -> ->]|[= -> ->]]; auto.
  - intros (f & s & [S|S]).
    + assert (X : (f, v, w) ∈ l) by (apply (csides_elem (fresh vs ix faces) l _ _ _ Hl); by exists s).
      destruct (I3 _ _ _ X) as (_ & _ & k & q & Hk & E). exists q. split; [by eapply elem_of_list_lookup_2|done].
    + assert (X : (f, w, v) ∈ l) by (apply (csides_elem (fresh vs ix faces) l _ _ _ Hl); by exists s).
      destruct (I3 _ _ _ X) as (_ & _ & k & q & Hk & E). exists q. split; [by eapply elem_of_list_lookup_2|].
      eapply ends_trans; [exact E|by right].
Qed.
Print Assumptions C97_neighbors.
(** Calculating again keeps the neighbors of before, whatever the faces are now. *)
Theorem C97_again m m' v i j : cupdate m = Ok m' → c_start m !! v = Some i → c_start m !! S v = Some j →
  i <= j → j <= length (c_neighbors m) →
  c_start m' !! v = Some i ∧ c_start m' !! S v = Some j ∧ slice (c_neighbors m') i j = slice (c_neighbors m) i j.
Proof.
  intros H Hi Hj Hij Hl. apply cupdate_parts in H as (_ & _ & _ & _ & _ & A & _). rewrite add_neighbors_eq in A. injection A as -> ->.
  split_and!; [by apply lookup_app_l_Some..|]. unfold slice. rewrite drop_app_le by lia. rewrite take_app_le; [done|].
  rewrite drop_length. lia.
Qed.
Print Assumptions C97_again.

(** ** C98: normals, relevant directions, validation *)
Local Open Scope R_scope.
(** The cross product of the first side of a face and its j-th side *)
Definition turn (m : cmesh) (f j : nat) (x : v3) : Prop :=
  ∃ first count i0 i1 i2 i3 v0 v1 v2 v3, c_faces m !! f = Some (first, count) ∧
    c_indices m !! first = Some i0 ∧ c_indices m !! (first + 1)%nat = Some i1 ∧
    c_indices m !! (first + j)%nat = Some i2 ∧ c_indices m !! (first + (j + 1) mod count)%nat = Some i3 ∧
    c_vertices m !! i0 = Some v0 ∧ c_vertices m !! i1 = Some v1 ∧ c_vertices m !! i2 = Some v2 ∧ c_vertices m !! i3 = Some v3 ∧
    (1 <= j < count)%nat ∧ x = cross3 (sub3 v1 v0) (sub3 v3 v2).
Theorem C98_normals m m' f n : cupdate m = Ok m' → c_normals m' !! f = Some n →
  unit3 n ∧
  ((∃ j x, turn m f j x ∧ tiny < lsq x ∧ n = div3 x (len x) ∧ ∀ j' x', (j' < j)%nat → turn m f j' x' → lsq x' <= tiny) ∨
   (n = ey ∧ ∀ j x, turn m f j x → lsq x <= tiny)).
Proof.
  intros H Hn. apply cupdate_parts in H as (_ & _ & _ & F & _).
  destruct (Forall2_lookup_r _ _ _ _ _ F Hn) as ([first count] & Hf & E). unfold cface_normal in E.
  apply bind_ok in E as (i0 & E0 & E). apply bind_ok in E as (i1 & E1 & E). apply bind_ok in E as (v0 & V0 & E).
  apply bind_ok in E as (v1 & V1 & E). apply at_ok in E0, E1, V0, V1. apply second_side_ok in E. cbv zeta in E.
  assert (T : ∀ j x, turn m f j x ↔ (1 <= j < count)%nat ∧ ∃ i2 i3 v2 v3, c_indices m !! (first + j)%nat = Some i2 ∧
    c_indices m !! (first + (j + 1) mod count)%nat = Some i3 ∧ c_vertices m !! i2 = Some v2 ∧ c_vertices m !! i3 = Some v3 ∧
    x = cross3 (sub3 v1 v0) (sub3 v3 v2)).
  { intros j x. split.
    - intros (fi & c & a0 & a1 & i2 & i3 & w0 & w1 & v2 & v3 & Q & A0 & A1 & A2 & A3 & W0 & W1 & W2 & W3 & J & X).
      rewrite Hf in Q. injection Q as <- <-. rewrite E0 in A0. injection A0 as <-. rewrite E1 in A1. injection A1 as <-.
      rewrite V0 in W0. injection W0 as <-. rewrite V1 in W1. injection W1 as <-. split; [done|]. by exists i2, i3, v2, v3.
    - intros (J & i2 & i3 & v2 & v3 & A2 & A3 & W2 & W3 & X). exists first, count, i0, i1, i2, i3, v0, v1, v2, v3. done. }
  destruct E as [(k & j & x & Hk & X & A & B & C & D)|[-> D]].
  - split; [done|]. left. apply lookup_seq in Hk as [-> Hlt]. exists (1 + k)%nat, x.
    split_and!; [apply T; split; [lia|done]|done|done|].
    intros j' x' Hj HT. apply T in HT as [J X']. apply (D (j' - 1)%nat j' x'); [lia| |done].
    apply lookup_seq. lia.
  - split; [unfold unit3, dot3, ey; cbn [vx vy vz]; ring|]. right. split; [done|]. intros j x HT. apply T in HT as [J X].
    apply (D j x); [|done]. apply elem_of_seq. lia.
Qed.
Print Assumptions C98_normals.

Lemma like_normal_iff a b : like_normal a b = true ↔ 1 - relevant_tolerance <= dot3 a b.
Proof.
  unfold like_normal. rewrite negb_true_iff. unfold rltb. destruct (Rlt_dec _ _); split; intros; try done; lra.
Qed.
Lemma like_edge_iff a b : like_edge a b = true ↔ 1 - relevant_tolerance <= Rabs (dot3 a b).
Proof.
  unfold like_edge. rewrite negb_true_iff. unfold rltb. destruct (Rlt_dec _ _); split; intros; try done; lra.
Qed.
(** Each normal is close to that of a relevant face, and those differ. *)
Theorem C98_relevant_faces vs ix faces m' : cupdate (fresh vs ix faces) = Ok m' →
  NoDup (c_relevant_faces m') ∧
  (∀ f n, c_normals m' !! f = Some n → ∃ g n', g ∈ c_relevant_faces m' ∧ c_normals m' !! g = Some n' ∧
     1 - relevant_tolerance <= dot3 n n') ∧
  (∀ f g n n', f ∈ c_relevant_faces m' → g ∈ c_relevant_faces m' → f ≠ g →
     c_normals m' !! f = Some n → c_normals m' !! g = Some n' → dot3 n n' < 1 - relevant_tolerance).
Proof.
  intros H.
  pose proof H as (_ & _ & _ & _ & _ & _ & R & _)%cupdate_parts. simpl in R. unfold relevant in R.
  destruct (relevant_spec like_normal (c_normals m') (length (c_normals m')) ltac:(lia)) as (A & B & C & D).
  { intros i d Hd. destruct (C98_normals _ _ _ _ H Hd) as [U' _]. apply like_normal_iff. unfold unit3, relevant_tolerance in *. lra. }
  rewrite <- R in A, B, C, D. split_and!; [done| |].
  - intros f n Hf. destruct (B f n) as (g & n' & Hg & Hn & L); [by eapply lookup_lt_Some|done|].
    exists g, n'. by rewrite <- like_normal_iff.
  - assert (X : ∀ f g n n', f ∈ c_relevant_faces m' → g ∈ c_relevant_faces m' → (g < f)%nat →
     c_normals m' !! f = Some n → c_normals m' !! g = Some n' → dot3 n n' < 1 - relevant_tolerance).
    { intros f g n n' Hf Hg Hlt Hn Hn'. pose proof (C f g n n' Hf Hg Hlt Hn Hn') as L.
      destruct (Rlt_dec (dot3 n n') (1 - relevant_tolerance)); [done|].
      assert (like_normal n n' = true) by (apply like_normal_iff; lra). congruence. }
    intros f g n n' Hf Hg Hne Hn Hn'. destruct (Nat.lt_total g f) as [Hlt|[->|Hlt]]; [by eapply (X f g)|done|].
    replace (dot3 n n') with (dot3 n' n) by (unfold dot3; ring). by eapply (X g f).
Qed.
Print Assumptions C98_relevant_faces.
(** Each edge is nearly parallel to a relevant edge, and those are not. *)
Definition along (m : cmesh) (k : nat) (d : v3) : Prop :=
  ∃ q a b, c_edges m !! k = Some q ∧ c_vertices m !! q.1 = Some a ∧ c_vertices m !! q.2 = Some b ∧ d = div3 (sub3 b a) (len (sub3 b a)).
Theorem C98_relevant_edges vs ix faces m' : cupdate (fresh vs ix faces) = Ok m' →
  NoDup (c_relevant_edges m') ∧
  (∀ k d, along m' k d → ∃ k' d', k' ∈ c_relevant_edges m' ∧ along m' k' d' ∧ 1 - relevant_tolerance <= Rabs (dot3 d d')) ∧
  (∀ k k' d d', k ∈ c_relevant_edges m' → k' ∈ c_relevant_edges m' → k ≠ k' → along m' k d → along m' k' d' →
     Rabs (dot3 d d') < 1 - relevant_tolerance).
Proof.
  intros H. apply cupdate_parts in H as (Ev & _ & _ & _ & _ & _ & _ & dirs & F & R). simpl in *. unfold relevant in R.
  assert (Al : ∀ k d, along m' k d ↔ dirs !! k = Some d).
  { intros k d. split.
    - intros (q & a & b & Hq & Ha & Hb & ->). destruct (Forall2_lookup_l _ _ _ _ _ F Hq) as (d & Hd & E).
      unfold edge_dir, at_ in E. rewrite Ev in Ha, Hb. rewrite Ha, Hb in E. cbn [opt_res mbind res_bind] in E.
      apply normalize_ok in E as (_ & <- & _). done.
    - intros Hd. destruct (Forall2_lookup_r _ _ _ _ _ F Hd) as (q & Hq & E). unfold edge_dir in E.
      apply bind_ok in E as (a & Ha & E). apply bind_ok in E as (b & Hb & E). apply at_ok in Ha, Hb.
      apply normalize_ok in E as (_ & -> & _). exists q, a, b. by rewrite Ev. }
  assert (Un : ∀ k d, dirs !! k = Some d → unit3 d).
  { intros k d Hd. destruct (Forall2_lookup_r _ _ _ _ _ F Hd) as (q & Hq & E). unfold edge_dir in E.
    apply bind_ok in E as (a & Ha & E). apply bind_ok in E as (b & Hb & E). by apply normalize_ok in E as (_ & _ & E). }
  destruct (relevant_spec like_edge dirs (length dirs) ltac:(lia)) as (A & B & C & D).
  { intros i d Hd. pose proof (Un _ _ Hd) as U. apply like_edge_iff. unfold unit3 in U. rewrite U, Rabs_R1. unfold relevant_tolerance. lra. }
  rewrite <- R in A, B, C, D. split_and!; [done| |].
  - intros k d Hk%Al. destruct (B k d) as (k' & d' & Hk' & Hd & L); [by eapply lookup_lt_Some|done|].
    exists k', d'. rewrite <- like_edge_iff. split_and!; [done|by apply Al|done].
  - assert (X : ∀ f g n n', f ∈ c_relevant_edges m' → g ∈ c_relevant_edges m' → (g < f)%nat →
     dirs !! f = Some n → dirs !! g = Some n' → Rabs (dot3 n n') < 1 - relevant_tolerance).
    { intros f g n n' Hf Hg Hlt Hn Hn'. pose proof (C f g n n' Hf Hg Hlt Hn Hn') as L.
      destruct (Rlt_dec (Rabs (dot3 n n')) (1 - relevant_tolerance)); [done|].
      assert (like_edge n n' = true) by (apply like_edge_iff; lra). congruence. }
    intros f g n n' Hf Hg Hne Hn%Al Hn'%Al. destruct (Nat.lt_total g f) as [Hlt|[->|Hlt]]; [by eapply (X f g)|done|].
    replace (dot3 n n') with (dot3 n' n) by (unfold dot3; ring). by eapply (X g f).
Qed.
Print Assumptions C98_relevant_edges.
(** Validation holds exactly if the faces are flat and all vertices are behind
    them, up to the tolerance. *)
Theorem C98_validate m ok : validate m = Ok ok → length (c_normals m) = length (c_faces m) →
  ok = true ↔ ∀ f first count i0 n v0, c_faces m !! f = Some (first, count) → c_normals m !! f = Some n →
    c_indices m !! first = Some i0 → c_vertices m !! i0 = Some v0 →
    (∀ j i v, (1 <= j < count)%nat → c_indices m !! (first + j)%nat = Some i → c_vertices m !! i = Some v →
       Rabs (dot3 (sub3 v v0) n) <= flat_tolerance) ∧
    (∀ v, v ∈ c_vertices m → dot3 (sub3 v v0) n <= flat_tolerance).
Proof.
  intros H HL. unfold validate in H. apply bind_ok in H as (b & Hb & H).
  assert (Ng : ∀ x, negb (rltb flat_tolerance x) = true ↔ x <= flat_tolerance).
  { intros x. rewrite negb_true_iff. unfold rltb. destruct (Rlt_dec _ _); split; intros; try done; lra. }
  assert (Fl : ∀ f c, flat_face m f = Ok c → ∃ n first count i0 v0, c_normals m !! f = Some n ∧ c_faces m !! f = Some (first, count) ∧
    c_indices m !! first = Some i0 ∧ c_vertices m !! i0 = Some v0 ∧
    (c = true ↔ ∀ j i v, (1 <= j < count)%nat → c_indices m !! (first + j)%nat = Some i → c_vertices m !! i = Some v →
       Rabs (dot3 (sub3 v v0) n) <= flat_tolerance)).
  { intros f c E. unfold flat_face in E. apply bind_ok in E as (n & En & E). apply bind_ok in E as ([first count] & Ef & E).
    apply bind_ok in E as (i0 & E0 & E). apply bind_ok in E as (v0 & V0 & E). apply at_ok in En, Ef, E0, V0.
    exists n, first, count, i0, v0. split_and!; try done. rewrite (res_all_ok _ _ _ E). split.
    - intros G j i v J Hi Hv. apply Ng. eapply (G j); [apply elem_of_seq; lia|]. unfold at_. rewrite Hi. cbn [opt_res mbind res_bind]. by rewrite Hv.
    - intros G j c' J%elem_of_seq Ec. apply bind_ok in Ec as (i & Hi & Ec). apply bind_ok in Ec as (v & Hv & [= <-]).
      apply at_ok in Hi, Hv. apply Ng. eapply G; [|done|done]. lia. }
  assert (Ou : ∀ f c, outer_face m f = Ok c → ∃ n first count i0 v0, c_normals m !! f = Some n ∧ c_faces m !! f = Some (first, count) ∧
    c_indices m !! first = Some i0 ∧ c_vertices m !! i0 = Some v0 ∧
    (c = true ↔ ∀ v, v ∈ c_vertices m → dot3 (sub3 v v0) n <= flat_tolerance)).
  { intros f c E. unfold outer_face in E. apply bind_ok in E as (n & En & E). apply bind_ok in E as ([first count] & Ef & E).
    apply bind_ok in E as (i0 & E0 & E). apply bind_ok in E as (v0 & V0 & E). apply at_ok in En, Ef, E0, V0. simpl in E0.
    exists n, first, count, i0, v0. split_and!; try done. rewrite (res_all_ok _ _ _ E). split.
    - intros G v Hv. apply Ng. by eapply (G v).
    - intros G v c' Hv [= <-]. by apply Ng, G. }
  assert (Sq : ∀ f x, c_faces m !! f = Some x → f ∈ seq 0 (length (c_faces m))).
  { intros f x Hf. apply elem_of_seq. apply lookup_lt_Some in Hf. lia. }
  split.
  - intros ->. destruct b; [|done]. intros f first count i0 n v0 Hf Hn Hi Hv.
    pose proof (res_all_true _ _ Hb f (Sq _ _ Hf)) as (n1 & fi1 & c1 & i1 & v1 & N1 & F1 & I1 & V1 & G1)%Fl.
    pose proof (res_all_true _ _ H f (Sq _ _ Hf)) as (n2 & fi2 & c2 & i2 & v2 & N2 & F2 & I2 & V2 & G2)%Ou.
    rewrite Hn in N1, N2. injection N1 as <-. injection N2 as <-. rewrite Hf in F1, F2. injection F1 as <- <-. injection F2 as <- <-.
    rewrite Hi in I1, I2. injection I1 as <-. injection I2 as <-. rewrite Hv in V1, V2. injection V1 as <-. injection V2 as <-.
    split; [by apply G1|by apply G2].
  - intros G. destruct ok; [done|]. exfalso. destruct b.
    + apply res_all_false in H as (f & _ & E). apply Ou in E as (n & fi & c & i0 & v0 & N & F & I & V & E).
      destruct (G _ _ _ _ _ _ F N I V) as [_ G2]. apply E in G2. done.
    + apply res_all_false in Hb as (f & _ & E). apply Fl in E as (n & fi & c & i0 & v0 & N & F & I & V & E).
      destruct (G _ _ _ _ _ _ F N I V) as [G1 _]. apply E in G1. done.
Qed.
Print Assumptions C98_validate.

(** A triangle seen from both sides meets the hypotheses. *)
Definition two_sided : cmesh := fresh [vec0; ex; ey] [0; 1; 2; 0; 2; 1]%nat [(0, 3); (3, 3)]%nat.
Example C97_case : (∃ m', cupdate two_sided = Ok m') ∧ is_side two_sided 0 1 1 2 ∧ is_side two_sided 1 1 2 1.
Proof.
  assert (Sd : ∀ f j i0 i1, is_side two_sided f j i0 i1 →
    (f, j, i0, i1) ∈ [(0, 0, 0, 1); (0, 1, 1, 2); (0, 2, 2, 0); (1, 0, 0, 2); (1, 1, 2, 1); (1, 2, 1, 0)]%nat).
  { intros f j i0 i1 (fi & c & Hf & Hj & (fi1 & c1 & Hf1 & H1) & (fi2 & c2 & Hf2 & H2)). 
    rewrite Hf in Hf1, Hf2. injection Hf1 as <- <-. injection Hf2 as <- <-.
    destruct f as [|[|]]; simpl in Hf; try done; injection Hf as <- <-; destruct j as [|[|[|]]]; try lia;
      simpl in H1, H2; injection H1 as <-; injection H2 as <-; set_solver. }
  split_and!.
  - apply C97_accepted.
    + intros f first count Hf. destruct f as [|[|]]; simpl in Hf; try done; injection Hf as <- <-; simpl; lia.
    + intros i Hi. simpl in *. repeat (apply elem_of_cons in Hi as [->|Hi]; [lia|]). by apply elem_of_nil in Hi.
    + intros (q & ks & N & L & K).
      set (l := [(0, 0, 1); (0, 1, 2); (0, 2, 0); (1, 0, 2); (1, 2, 1); (1, 1, 0)]%nat : list side).
      pose proof (faces_with_keys two_sided l q ks eq_refl N K) as Le. rewrite L in Le.
      destruct (faces_with l q) as [|g r] eqn:E; [simpl in Le; lia|].
      assert (G : g ∈ faces_with l q) by (rewrite E; by left). apply faces_with_elem in G as (i0 & i1 & X & Eq).
      rewrite <- E, (faces_with_ends l q (i0, i1) Eq) in Le. clear -X Le. unfold l in X.
      rewrite !elem_of_cons, elem_of_nil in X.
      destruct X as [X|[X|[X|[X|[X|[X|[]]]]]]]; injection X as -> -> ->; vm_compute in Le; lia.
    + intros f j i0 i1 v0 v1 S%Sd H0 H1.
      assert (1 <= lsq (sub3 v1 v0)).
      { rewrite !elem_of_cons, elem_of_nil in S. destruct S as [E|[E|[E|[E|[E|[E|[]]]]]]]; injection E as -> -> -> ->;
          simpl in H0, H1; injection H0 as <-; injection H1 as <-; unfold lsq, dot3, sub3, vec0, ex, ey; cbn [vx vy vz]; lra. }
      assert (1 <= len (sub3 v1 v0)) by (unfold len; apply Rle_trans with (sqrt 1); [rewrite sqrt_1; lra|by apply sqrt_le_1_alt]).
      unfold tiny. lra.
  - exists 0%nat, 3%nat. split_and!; [done|lia|by exists 0%nat, 3%nat|by exists 0%nat, 3%nat].
  - exists 3%nat, 3%nat. split_and!; [done|lia|by exists 3%nat, 3%nat|by exists 3%nat, 3%nat].
Qed.

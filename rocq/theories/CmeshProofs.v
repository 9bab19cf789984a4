(** Edges and neighbors of convex meshes. *)
From Verif Require Import Outcome BoxModel GeoModel TmeshModel TmeshSpec TmeshProofs CmeshModel CmeshSpec.
Local Open Scope nat_scope.

Lemma faces_with_app l l' q : faces_with (l ++ l') q = faces_with l q ++ faces_with l' q.
Proof. unfold faces_with. apply omap_app. Qed.
Lemma faces_with_elem l q f : f ∈ faces_with l q ↔ ∃ i0 i1, (f, i0, i1) ∈ l ∧ same_ends q (i0, i1).
Proof.
  unfold faces_with. rewrite elem_of_list_omap. split.
  - intros ([[g i0] i1] & H & E). simpl in E. destruct (decide _); [|done]. injection E as ->. eauto.
  - intros (i0 & i1 & H & E). exists (f, i0, i1). split; [done|]. simpl. by destruct (decide _).
Qed.
Lemma faces_with_ends l q q' : same_ends q q' → faces_with l q = faces_with l q'.
Proof.
  intros E. unfold faces_with. induction l as [|x l IH]; [done|]. simpl.
  assert (same_ends q (x.1.2, x.2) ↔ same_ends q' (x.1.2, x.2)) as X.
  { split; intros H; eapply ends_trans; try exact H; [by apply ends_sym|done]. }
  destruct (decide (same_ends q _)), (decide (same_ends q' _)); try tauto. f_equal. exact IH.
Qed.

Record cinv (nv : nat) (l : list side) (s : list (nat * nat) * list (nat * option nat)) : Prop := CInv {
  j_len : length s.2 = length s.1;
  j_once : ∀ k k' q q', s.1 !! k = Some q → s.1 !! k' = Some q' → same_ends q q' → k = k';
  j_side : ∀ f i0 i1, (f, i0, i1) ∈ l → i0 < nv ∧ i1 < nv ∧ ∃ k q, s.1 !! k = Some q ∧ same_ends q (i0, i1);
  j_real : ∀ q, q ∈ s.1 → ∃ f, (f, q.1, q.2) ∈ l;
  j_faces : ∀ k q a b, s.1 !! k = Some q → s.2 !! k = Some (a, b) → faces_with l q = a :: option_list b;
  j_first : ∀ k q a b, s.1 !! k = Some q → s.2 !! k = Some (a, b) → (a, q.1, q.2) ∈ l }.
Lemma cadd_inv nv l s x : cinv nv l s →
  match cadd nv s x with
  | Ok s' => cinv nv (l ++ [x]) s'
  | AssertFail => 3 <= length (faces_with (l ++ [x]) (x.1.2, x.2))
  | UB => ¬ (x.1.2 < nv ∧ x.2 < nv)
  | NoFuel => False
  end.
Proof.
  intros [I1 I2 I3 I4 I5 I6]. destruct x as [[f i0] i1], s as [ps fs]. unfold cadd. simpl in *.
  assert (FW : ∀ q, faces_with [(f, i0, i1)] q = if decide (same_ends q (i0, i1)) then [f] else []).
  { intros q. unfold faces_with. simpl. by destruct (decide _). }
  destruct (find_edge (i0, i1) ps) as [k|] eqn:Ef.
  - apply find_edge_some in Ef as (q & Hq & Eq). destruct (lookup_lt_is_Some_2 fs k) as [[a b] Hk].
    { rewrite I1. by eapply lookup_lt_Some. }
    unfold at_. rewrite Hk. simpl. pose proof (I5 k q a b Hq Hk) as F.
    destruct b as [b|]; simpl.
    + rewrite (faces_with_ends _ (i0, i1) q) by (by apply ends_sym).
      rewrite faces_with_app, F, FW, decide_True by done. simpl. lia.
    + constructor; simpl.
      * by rewrite insert_length.
      * done.
      * intros g j0 j1 [H|H]%elem_of_app; [by eapply I3|]. apply elem_of_list_singleton in H as [= -> -> ->].
        destruct (I4 q) as [g Hg]; [by eapply elem_of_list_lookup_2|]. destruct (I3 _ _ _ Hg) as (A & B & _).
        destruct q as [q0 q1]. simpl in *. split_and!; [destruct Eq as [[= -> ->]|[= -> ->]]; done..|]. by exists k, (q0, q1).
      * intros q' Hq'. destruct (I4 q' Hq') as [g Hg]. exists g. apply elem_of_app. by left.
      * intros k' q' a' b' Hq' Hk'. rewrite faces_with_app, FW. destruct (decide (k = k')) as [<-|Hne].
        -- rewrite Hq in Hq'. injection Hq' as <-. rewrite list_lookup_insert in Hk' by (by eapply lookup_lt_Some).
           injection Hk' as <- <-. rewrite decide_True by done. by rewrite F.
        -- rewrite list_lookup_insert_ne in Hk' by done. rewrite decide_False.
           { rewrite app_nil_r. by eapply I5. }
           intros E. apply Hne, (I2 k k' q q' Hq Hq'). eapply ends_trans; [exact Eq|by apply ends_sym].
      * intros k' q' a' b' Hq' Hk'. apply elem_of_app. left. destruct (decide (k = k')) as [<-|Hne].
        -- rewrite list_lookup_insert in Hk' by (by eapply lookup_lt_Some). injection Hk' as <- <-. by eapply I6.
        -- rewrite list_lookup_insert_ne in Hk' by done. by eapply I6.
  - pose proof (find_edge_none _ _ Ef) as Fn.
    destruct (Nat.ltb_spec i0 nv) as [H0|H0]; [|simpl; lia]. destruct (Nat.ltb_spec i1 nv) as [H1|H1]; [|simpl; lia]. simpl.
    constructor; simpl.
    + rewrite !app_length. simpl. lia.
    + intros k k' q q' Hk Hk' E.
      apply lookup_app_Some in Hk as [Hk|[Lk Hk]]; apply lookup_app_Some in Hk' as [Hk'|[Lk' Hk']].
      * by apply (I2 k k' q q').
      * apply list_lookup_singleton_Some in Hk' as [_ <-]. destruct (Fn q); [by eapply elem_of_list_lookup_2|done].
      * apply list_lookup_singleton_Some in Hk as [_ <-]. destruct (Fn q'); [by eapply elem_of_list_lookup_2|by apply ends_sym].
      * apply list_lookup_singleton_Some in Hk as [? _]. apply list_lookup_singleton_Some in Hk' as [? _]. lia.
    + intros g j0 j1 [H|H]%elem_of_app.
      * destruct (I3 _ _ _ H) as (A & B & k & q & Hk & E). split_and!; [done..|]. exists k, q. split; [by apply lookup_app_l_Some|done].
      * apply elem_of_list_singleton in H as [= -> -> ->]. split_and!; [done..|]. exists (length ps), (i0, i1).
        split; [|apply ends_refl]. rewrite lookup_app_r by lia. by rewrite Nat.sub_diag.
    + intros q [Hq|Hq]%elem_of_app.
      * destruct (I4 q Hq) as [g Hg]. exists g. apply elem_of_app. by left.
      * apply elem_of_list_singleton in Hq as ->. exists f. apply elem_of_app. right. by apply elem_of_list_singleton.
    + intros k q a b Hq Hk. rewrite faces_with_app, FW. apply lookup_app_Some in Hq as [Hq|[Lq Hq]].
      * pose proof (lookup_lt_Some _ _ _ Hq). rewrite lookup_app_l in Hk by lia. rewrite decide_False.
        { rewrite app_nil_r. by eapply I5. }
        apply Fn. by eapply elem_of_list_lookup_2.
      * apply list_lookup_singleton_Some in Hq as [Hq <-]. assert (k = length ps) as -> by lia.
        rewrite lookup_app_r, I1, Nat.sub_diag in Hk by lia. injection Hk as <- <-.
        rewrite decide_True by apply ends_refl. simpl.
        destruct (faces_with l (i0, i1)) as [|g r] eqn:E; [done|]. exfalso.
        assert (Hg : g ∈ faces_with l (i0, i1)) by (rewrite E; by left).
        apply faces_with_elem in Hg as (j0 & j1 & Hj & Ej). destruct (I3 _ _ _ Hj) as (_ & _ & k & q & Hk & Eq).
        apply (Fn q); [by eapply elem_of_list_lookup_2|]. eapply ends_trans; [exact Eq|by apply ends_sym].
    + intros k q a b Hq Hk. apply elem_of_app. apply lookup_app_Some in Hq as [Hq|[Lq Hq]].
      * pose proof (lookup_lt_Some _ _ _ Hq). rewrite lookup_app_l in Hk by lia. left. by eapply I6.
      * right. apply list_lookup_singleton_Some in Hq as [Hq <-]. assert (k = length ps) as -> by lia.
        rewrite lookup_app_r, I1, Nat.sub_diag in Hk by lia. injection Hk as <- <-. by apply elem_of_list_singleton.
Qed.
Lemma faces_with_mono l l' q : length (faces_with l q) <= length (faces_with (l ++ l') q).
Proof. rewrite faces_with_app, app_length. lia. Qed.
Lemma cadds_inv nv l' : ∀ l s, cinv nv l s →
  match cadds nv s l' with
  | Ok s' => cinv nv (l ++ l') s'
  | AssertFail => ∃ q, 3 <= length (faces_with (l ++ l') q)
  | UB => ∃ f i0 i1, (f, i0, i1) ∈ l' ∧ ¬ (i0 < nv ∧ i1 < nv)
  | NoFuel => False
  end.
Proof.
  induction l' as [|x l' IH]; intros l s I; simpl; [by rewrite app_nil_r|].
  pose proof (cadd_inv nv l s x I) as A. destruct (cadd nv s x) as [s'| | |] eqn:E; simpl; try done.
  - specialize (IH (l ++ [x]) s' A). rewrite <- app_assoc in IH. simpl in IH.
    destruct (cadds nv s' l'); try done. destruct IH as (f & i0 & i1 & H & N). exists f, i0, i1. split; [by right|done].
  - exists (x.1.2, x.2). change (l ++ x :: l') with (l ++ [x] ++ l'). rewrite app_assoc. eapply Nat.le_trans; [exact A|apply faces_with_mono].
  - destruct x as [[f i0] i1]. exists f, i0, i1. split; [by left|done].
Qed.
Lemma cinv_init nv : cinv nv [] ([], []).
Proof.
  constructor; simpl; try done.
  - intros f i0 i1 H. by apply elem_of_nil in H.
  - intros q H. by apply elem_of_nil in H.
Qed.

(** Neighbors *)
Lemma ends_of_elem v w es : w ∈ ends_of v es ↔ ∃ q, q ∈ es ∧ same_ends q (v, w).
Proof.
  unfold ends_of, same_ends. rewrite elem_of_list_omap. split; intros ([a b] & H & E); exists (a, b); (split; [done|]); simpl in *.
  - unfold other_end in E. simpl in E. destruct (Nat.eqb_spec a v) as [->|]; simpl in E; [injection E as ->; by left|].
    destruct (Nat.eqb_spec b v) as [->|]; [|done]. injection E as ->. by right.
  - unfold other_end. simpl. destruct E as [[= -> ->]|[= -> ->]].
    + by rewrite Nat.eqb_refl.
    + rewrite Nat.eqb_refl, orb_true_r. destruct (Nat.eqb_spec w v) as [->|]; done.
Qed.
Definition all_ends (es : list (nat * nat)) (n : nat) : list nat := flat_map (λ v, ends_of v es) (seq 0 n).
Lemma all_ends_S es n : all_ends es (S n) = all_ends es n ++ ends_of n es.
Proof. unfold all_ends. rewrite seq_S, flat_map_app. simpl. by rewrite app_nil_r. Qed.
Lemma add_neighbors_eq nv es st ns : add_neighbors nv es st ns =
  (st ++ map (λ n, length (all_ends es n)) (seq 0 (S nv)), ns ++ all_ends es nv).
Proof.
  unfold add_neighbors.
  assert (H : ∀ nv, foldl (λ acc v, let '(st, ns, n) := acc in let l := ends_of v es in
     (st ++ [n + length l], ns ++ l, n + length l)) (st ++ [0], ns, 0) (seq 0 nv) =
     (st ++ map (λ n, length (all_ends es n)) (seq 0 (S nv)), ns ++ all_ends es nv, length (all_ends es nv))).
  { clear nv. intros nv. induction nv as [|nv IH]; [simpl; by rewrite app_nil_r|].
    rewrite (seq_S nv), foldl_app, IH. cbn [foldl]. rewrite Nat.add_0_l.
    rewrite (seq_S (S nv)), map_app. cbn [map]. rewrite Nat.add_0_l, all_ends_S, app_length.
    by rewrite <- !app_assoc. }
  rewrite H. done.
Qed.
Lemma all_ends_split es n k : all_ends es (n + k) = all_ends es n ++ flat_map (λ v, ends_of v es) (seq n k).
Proof. unfold all_ends. by rewrite seq_app, flat_map_app. Qed.
Lemma neighbors_between nv es v i j : v < nv →
  let '(st, ns) := add_neighbors nv es [] [] in
  st !! v = Some i → st !! S v = Some j → slice ns i j = ends_of v es.
Proof.
  intros Hv. rewrite add_neighbors_eq. intros Hi Hj. rewrite !app_nil_l in *.
  assert (G : ∀ k, k < S nv → map (λ n, length (all_ends es n)) (seq 0 (S nv)) !! k = Some (length (all_ends es k))).
  { intros k Hk. change (map ?f ?l) with (f <$> l). by rewrite list_lookup_fmap, lookup_seq_lt. }
  rewrite G in Hi, Hj by lia. injection Hi as <-. injection Hj as <-.
  rewrite all_ends_S, app_length. unfold slice.
  replace nv with (S v + (nv - S v)) by lia. rewrite all_ends_split, all_ends_S, <- app_assoc, drop_app.
  replace (length (all_ends es v) + length (ends_of v es) - length (all_ends es v)) with (length (ends_of v es)) by lia.
  by rewrite take_app.
Qed.

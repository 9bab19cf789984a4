(** Proofs for static_tree. *)
From Verif Require Import Outcome TreeModel TreeProofs BoxModel BoxProofs StaticModel.
From Coq Require Import Sorted.

(** ** Trees without parent links *)
Section srep.
Context {box : Type}.
Implicit Types ns : list (tnode box).
Fixpoint srep ns (t : bt) : Prop :=
  match t with
  | L i => ∃ n, ns !! i = Some n ∧ tn_c1 n = None
  | N i l r => ∃ n, ns !! i = Some n ∧ tn_c1 n = Some (bid l) ∧ tn_c2 n = Some (bid r) ∧ srep ns l ∧ srep ns r
  end.
Fixpoint sfit (sub : box → box → Prop) ns (t : bt) : Prop :=
  match t with
  | L i => True
  | N i l r => sfit sub ns l ∧ sfit sub ns r ∧ ∃ n nl nr,
      ns !! i = Some n ∧ ns !! bid l = Some nl ∧ ns !! bid r = Some nr ∧
      sub (tn_box nl) (tn_box n) ∧ sub (tn_box nr) (tn_box n)
  end.
Lemma srep_root ns t : srep ns t → ∃ n, ns !! bid t = Some n.
Proof. destruct t; simpl; intros (n & ? & _); eauto. Qed.
Lemma srep_ext ns ns' t : (∀ i, i ∈ ids t → ns' !! i = ns !! i) → srep ns t → srep ns' t.
Proof.
  induction t as [i|i l IHl r IHr]; simpl; intros He.
  - intros (n & ? & ?). exists n. by rewrite He by (by apply elem_of_list_singleton).
  - intros (n & ? & ? & ? & ? & ?). exists n. rewrite He by (by left). split_and!; try done.
    + apply IHl; [|done]. intros j Hj. apply He. right. apply elem_of_app. auto.
    + apply IHr; [|done]. intros j Hj. apply He. right. apply elem_of_app. auto.
Qed.
Lemma sfit_ext sub ns ns' t : (∀ i, i ∈ ids t → ns' !! i = ns !! i) → sfit sub ns t → sfit sub ns' t.
Proof.
  induction t as [i|i l IHl r IHr]; simpl; intros He; [done|].
  intros (Hl & Hr & n & nl & nr & ? & ? & ? & ? & ?). split_and!.
  - apply IHl; [|done]. intros j Hj. apply He. right. apply elem_of_app. auto.
  - apply IHr; [|done]. intros j Hj. apply He. right. apply elem_of_app. auto.
  - exists n, nl, nr. pose proof (bid_ids l). pose proof (bid_ids r).
    rewrite !He by (first [by left|right; apply elem_of_app; auto]). done.
Qed.

(** Queries *)
Fixpoint shits ns (test : box → bool) (u : bt) : list nat :=
  match ns !! bid u with
  | None => []
  | Some n =>
    if test (tn_box n) then
      match u with
      | L i => [i]
      | N i l r => shits ns test r ++ shits ns test l
      end
    else []
  end.
Fixpoint sids (us : list bt) : nat := match us with [] => 0 | u :: us => length (ids u) + sids us end.
Lemma straverse ns test fuel : ∀ us,
  (∀ u, u ∈ us → srep ns u) → sids us ≤ fuel →
  traverse_loop ns test fuel ((Some ∘ bid) <$> us) = Ok (us ≫= shits ns test).
Proof.
  induction fuel as [|fuel IH]; intros us Hus Hf.
  - destruct us as [|u us]; [done|]. exfalso. simpl in Hf.
    pose proof (bid_ids u) as Hb. destruct (ids u); [by apply elem_of_nil in Hb|].
    simpl in Hf. lia.
  - destruct us as [|u us]; [done|]. simpl in Hf.
    pose proof (Hus u ltac:(by left)) as Hu.
    assert (Hus' : ∀ v, v ∈ us → srep ns v) by (intros v Hv; apply Hus; by right).
    cbn [fmap list_fmap compose traverse_loop]. destruct (srep_root _ _ Hu) as (n & Hn).
    rewrite (nget_ok _ _ _ Hn). cbn [mbind res_bind].
    destruct u as [i|i l r]; simpl in Hf.
    + destruct Hu as (n' & Hn' & H1). simpl in Hn. assert (n' = n) as -> by congruence.
      assert (Hrec : traverse_loop ns test fuel ((Some ∘ bid) <$> us) = Ok (us ≫= shits ns test)).
      { apply IH; [done|]. lia. }
      cbn [mbind list_bind shits bid]. rewrite Hn. destruct (test (tn_box n)).
      * unfold tleaf. rewrite bool_decide_true by done. rewrite Hrec. done.
      * rewrite Hrec. done.
    + destruct Hu as (n' & Hn' & H1 & H2 & Rl & Rr). simpl in Hn. assert (n' = n) as -> by congruence.
      cbn [mbind list_bind shits bid]. rewrite Hn. destruct (test (tn_box n)).
      * unfold tleaf. rewrite bool_decide_false by (by rewrite H1). rewrite H1, H2.
        change (Some (bid r) :: Some (bid l) :: ((Some ∘ bid) <$> us))
          with ((Some ∘ bid) <$> (r :: l :: us)).
        rewrite IH.
        -- cbn [mbind list_bind]. by rewrite (assoc_L (++)).
        -- intros v [->|[->|Hv]%elem_of_cons]%elem_of_cons; eauto.
        -- simpl. rewrite app_length in Hf. lia.
      * rewrite IH; [done|done|]. rewrite app_length in Hf. lia.
Qed.
Lemma shits_leaves ns test u i : i ∈ shits ns test u → i ∈ leaves u.
Proof.
  induction u as [j|j l IHl r IHr]; simpl; destruct (ns !! j); try (by intros ?%elem_of_nil);
    destruct (test _); try (by intros ?%elem_of_nil); [done|].
  rewrite !elem_of_app. intros [?|?]; auto.
Qed.
Lemma shits_test ns test u i : i ∈ shits ns test u → ∃ n, ns !! i = Some n ∧ test (tn_box n) = true.
Proof.
  induction u as [j|j l IHl r IHr]; simpl; destruct (ns !! j) as [n|] eqn:Hn; try (by intros ?%elem_of_nil);
    destruct (test _) eqn:Ht; try (by intros ?%elem_of_nil).
  - intros ->%elem_of_list_singleton. eauto.
  - rewrite elem_of_app. intros [?|?]; auto.
Qed.
Lemma shits_nodup ns test u : NoDup (ids u) → NoDup (shits ns test u).
Proof.
  induction u as [j|j l IHl r IHr]; simpl; intros Hnd.
  - destruct (ns !! j); [destruct (test _)|]; try constructor; try constructor. by intros ?%elem_of_nil.
  - apply NoDup_cons in Hnd as [_ Hnd]. apply NoDup_app in Hnd as (Hl & Hd & Hr).
    destruct (ns !! j); [destruct (test _)|]; try constructor. apply NoDup_app. split_and!; auto.
    intros i Hi Hi'. apply (Hd i); [by eapply leaves_ids, shits_leaves|by eapply leaves_ids, shits_leaves].
Qed.
Lemma shits_complete (sub : box → box → Prop) ns (test : box → bool) u i n :
  (∀ a b, sub a b → test a = true → test b = true) →
  srep ns u → sfit sub ns u → i ∈ leaves u → ns !! i = Some n → test (tn_box n) = true →
  i ∈ shits ns test u ∧ ∃ m, ns !! bid u = Some m ∧ test (tn_box m) = true.
Proof.
  intros Hmono. induction u as [j|j l IHl r IHr]; intros Hr Hf Hi Hn Ht.
  - apply elem_of_list_singleton in Hi as ->. simpl. rewrite Hn, Ht. split; [by left|eauto].
  - destruct Hr as (nj & Hnj & _ & _ & Rl & Rr).
    destruct Hf as (Fl & Fr & n' & nl & nr & Hn' & Hnl & Hnr & Sl & Sr). simplify_eq.
    simpl in Hi |- *. rewrite Hnj. apply elem_of_app in Hi as [Hi|Hi].
    + destruct (IHl Rl Fl Hi Hn Ht) as (Hh & nl' & Hnl' & Htl). simplify_eq.
      assert (test (tn_box nj) = true) as Htj by eauto. rewrite Htj. split; [|eauto].
      apply elem_of_app. by right.
    + destruct (IHr Rr Fr Hi Hn Ht) as (Hh & nr' & Hnr' & Htr). simplify_eq.
      assert (test (tn_box nj) = true) as Htj by eauto. rewrite Htj. split; [|eauto].
      apply elem_of_app. by left.
Qed.
End srep.

(** ** Sorting *)
(** What [std::sort] guarantees for a comparator [lt] that is a strict weak
    order: a permutation with no later element less than an earlier one. *)
Definition sort_ok (srt : (nat → nat → bool) → list nat → list nat) : Prop :=
  ∀ lt, (∀ a, lt a a = false) → (∀ a b c, lt a b = true → lt b c = true → lt a c = true) →
    (∀ a b c, lt a b = false → lt b a = false → lt b c = false → lt c b = false →
      lt a c = false ∧ lt c a = false) →
  ∀ l, srt lt l ≡ₚ l ∧ StronglySorted (λ a b, lt b a = false) (srt lt l).

Section proofs.
Context {R : Type} (leb ltb : R → R → bool) (add sub mul : R → R → R) (half : R).
Context (srt : (nat → nat → bool) → list nat → list nat) (box0 : aabb R).
Context (O : total_order leb ltb) (Hsrt : sort_ok srt).
(** the midpoint does not decrease when the upper bound grows *)
Context (mid_mono : ∀ x a b, leb a b = true → leb (mul (add x a) half) (mul (add x b) half) = true).
Notation box := (aabb R).
Notation recurse_build := (recurse_build ltb add sub mul half srt box0).
Notation build := (build ltb add sub mul half srt box0).
Notation partition := (partition ltb add sub mul half srt box0).
Notation key := (key add mul half box0).
Notation center := (center add mul half).
Notation bin := (box_in leb).
Notation snew := (snew box0).
Implicit Types ns : list (tnode box).

Lemma key_lt_swo bs axis :
  let lt := λ a b, ltb (key bs axis a) (key bs axis b) in
  (∀ a, lt a a = false) ∧ (∀ a b c, lt a b = true → lt b c = true → lt a c = true) ∧
    (∀ a b c, lt a b = false → lt b a = false → lt b c = false → lt c b = false →
      lt a c = false ∧ lt c a = false).
Proof using O.
  intros lt. unfold lt.
  assert (T := to_total _ _ O). assert (Tr := to_trans _ _ O). split_and!.
  - intros a. rewrite (to_lt _ _ O). apply negb_false_iff. apply (leb_refl _ _ O).
  - intros a b c. rewrite !(to_lt _ _ O), !negb_true_iff. intros H1 H2.
    destruct (leb (key bs axis c) (key bs axis a)) eqn:E; [|done].
    destruct (T (key bs axis a) (key bs axis b)) as [H|H]; [|congruence].
    rewrite (Tr _ _ _ E H) in H2. done.
  - intros a b c. rewrite !(to_lt _ _ O), !negb_false_iff. intros H1 H2 H3 H4. split; eapply Tr; eassumption.
Qed.

(** ** The split *)
Lemma first_above_spec f split l :
  match first_above ltb f split l with
  | None => ∀ i, i ∈ l → ltb split (f i) = false
  | Some k => k < length l ∧ ∃ i, l !! k = Some i ∧ ltb split (f i) = true ∧
      ∀ j i', j < k → l !! j = Some i' → ltb split (f i') = false
  end.
Proof using Type.
  induction l as [|i l IH]; simpl; [by intros i ?%elem_of_nil|].
  destruct (ltb split (f i)) eqn:E.
  - split; [lia|]. exists i. split_and!; try done. intros j i' Hj. lia.
  - destruct (first_above ltb f split l) as [k|]; simpl.
    + destruct IH as (Hk & i' & Hi' & Ht & Hb). split; [lia|]. exists i'. split_and!; try done.
      intros [|j] i'' Hj Hl; simpl in Hl; [congruence|]. eapply Hb; [|done]. lia.
    + intros j [->|Hj]%elem_of_cons; auto.
Qed.

(** The set box: it is the enclosing box, and some element attains its minimum. *)
Definition fold_box (b0 : box) (l : list box) : box := foldl (bx_enclose ltb) b0 l.
Lemma fold_box_in b0 l b : b ∈ b0 :: l → bin b (fold_box b0 l).
Proof using O.
  revert b0 b. induction l as [|c l IH]; intros b0 b Hb; simpl.
  - apply elem_of_list_singleton in Hb as ->. by apply (box_in_refl _ _ O).
  - apply elem_of_cons in Hb as [->|Hb].
    + eapply (box_in_trans _ _ O); [apply (enclose_l _ _ O)|]. apply IH. by left.
    + apply elem_of_cons in Hb as [->|Hb].
      * eapply (box_in_trans _ _ O); [apply (enclose_r _ _ O)|]. apply IH. by left.
      * apply IH. by right.
Qed.
Lemma fold_box_least b0 l c : (∀ b, b ∈ b0 :: l → bin b c) → bin (fold_box b0 l) c.
Proof using Type.
  revert b0. induction l as [|d l IH]; intros b0 Hb; simpl.
  - apply Hb. by left.
  - apply IH. intros b [->|Hin]%elem_of_cons.
    + apply (enclose_least _ _); apply Hb; [by left|right; by left].
    + apply Hb. right. by right.
Qed.
Lemma smin_cases a b : smin ltb a b = a ∨ smin ltb a b = b.
Proof using Type. unfold smin. destruct (ltb b a); auto. Qed.
Lemma fold_box_min b0 l axis :
  ∃ b, b ∈ b0 :: l ∧ vcomp (bmin (fold_box b0 l)) axis = vcomp (bmin b) axis.
Proof using Type.
  revert b0. induction l as [|d l IH]; intros b0; simpl.
  - exists b0. split; [by left|done].
  - destruct (IH (bx_enclose ltb b0 d)) as (b & Hb & Heq). change (fold_box b0 (d :: l)) with (fold_box (bx_enclose ltb b0 d) l). rewrite Heq.
    apply elem_of_cons in Hb as [->|Hb].
    + assert (Hc : vcomp (bmin (bx_enclose ltb b0 d)) axis = vcomp (bmin b0) axis ∨
                   vcomp (bmin (bx_enclose ltb b0 d)) axis = vcomp (bmin d) axis).
      { destruct axis as [|[|axis]]; simpl; apply smin_cases. }
      destruct Hc as [->| ->]; [exists b0|exists d]; split; try done; [by left|right; by left].
    + exists b. split; [right; by right|done].
Qed.
Lemma center_comp b axis : vcomp (center b) axis = mul (add (vcomp (bmin b) axis) (vcomp (bmax b) axis)) half.
Proof using Type. by destruct axis as [|[|axis]]. Qed.
Lemma bin_max_comp a b axis : bin a b → leb (vcomp (bmax a) axis) (vcomp (bmax b) axis) = true.
Proof using Type. intros [_ (?&?&?)]. by destruct axis as [|[|axis]]. Qed.

(** Neither side of the split is empty, and no element is lost. *)
Lemma partition_spec bs ids b0 l ids' mid :
  length ids ≥ 2 → (λ i, default box0 (bs !! i)) <$> ids = b0 :: l →
  partition bs ids (fold_box b0 l) = (ids', mid) →
  ids' ≡ₚ ids ∧ 0 < mid < length ids.
Proof using O Hsrt mid_mono.
  intros Hlen Hbs. unfold StaticModel.partition.
  set (axis := max_index ltb _). set (split := vcomp _ axis).
  set (lt := λ a b, ltb (key bs axis a) (key bs axis b)).
  destruct (key_lt_swo bs axis) as (S1 & S2 & S3). destruct (Hsrt lt S1 S2 S3 ids) as [Hp Hs].
  pose proof (first_above_spec (key bs axis) split (srt lt ids)) as Hfa.
  assert (Hl : length (srt lt ids) = length ids) by (by rewrite Hp).
  destruct (first_above ltb (key bs axis) split (srt lt ids)) as [k|].
  - intros [= <- <-]. split; [done|]. destruct Hfa as (Hk & i & Hi & Ht & _). split; [|lia].
    destruct k as [|k]; [|lia]. exfalso.
    destruct (fold_box_min b0 l axis) as (bm & Hbm & Hmin).
    rewrite <- Hbs in Hbm. apply elem_of_list_fmap in Hbm as (im & -> & Him).
    assert (Hle : leb (key bs axis im) split = true).
    { unfold StaticModel.key, split. rewrite !center_comp, Hmin. apply mid_mono. apply bin_max_comp, fold_box_in.
      rewrite <- Hbs. apply elem_of_list_fmap. by exists im. }
    destruct (srt lt ids) as [|i' rest] eqn:Esrt; [done|]. simpl in Hi. injection Hi as ->.
    assert (Hfirst : lt im i = false).
    { rewrite <- Hp in Him. apply elem_of_cons in Him as [->|Him]; [apply S1|].
      apply StronglySorted_inv in Hs as [_ Hf]. rewrite Forall_forall in Hf. by apply Hf. }
    unfold lt in Hfirst. rewrite (to_lt _ _ O) in Hfirst, Ht. apply negb_false_iff in Hfirst.
    apply negb_true_iff in Ht. rewrite (to_trans _ _ O _ _ _ Hfirst Hle) in Ht. done.
  - intros Heq. apply pair_equal_spec in Heq as [<- <-]. split; [done|]. rewrite Hl. split.
    + apply Nat.div_str_pos. lia.
    + apply Nat.div_lt; lia.
Qed.

(** ** Building *)
Lemma fold_ok bs ids b0 :
  (∀ i, i ∈ ids → i < length bs) →
  foldl (λ acc i, a ← acc; b ← opt_res (bs !! i); Ok (bx_enclose ltb a b)) (Ok b0) ids =
  Ok (fold_box b0 ((λ i, default box0 (bs !! i)) <$> ids)).
Proof using Type.
  revert b0. induction ids as [|i ids IH]; intros b0 Hi; [done|]. simpl.
  destruct (lookup_lt_is_Some_2 bs i) as [b Hb]; [apply Hi; by left|]. rewrite Hb. simpl.
  apply IH. intros j Hj. apply Hi. by right.
Qed.

Definition ebox (bs : list box) (i : nat) : box := default box0 (bs !! i).

(** Result of building one subtree at [idx]: [t] its shape, [rs] its reports. *)
Record built (bs : list box) (max : nat) (ns ns' : list (tnode box)) (ids0 : list nat) (idx : nat)
    (rs : list report) (t : bt) : Prop := {
  bu_id : bid t = idx;
  bu_ids : ids t ≡ₚ idx :: seq (length ns) (length ns' - length ns);
  bu_len : length ns ≤ length ns';
  bu_same : ∀ i, i < length ns → i ≠ idx → ns' !! i = ns !! i;
  bu_rep : srep ns' t;
  bu_fit : sfit bin ns' t;
  bu_box : ∃ n, ns' !! idx = Some n ∧ (∀ i, i ∈ ids0 → bin (ebox bs i) (tn_box n)) ∧
     (∀ c, (∀ i, i ∈ ids0 → bin (ebox bs i) c) → bin (tn_box n) c);
  bu_leaves : leaves t = rs.*1;
  bu_elems : concat (rs.*2) ≡ₚ ids0;
  bu_size : ∀ i es, (i, es) ∈ rs → es ≠ [] ∧ length es ≤ max;
  bu_leafbox : ∀ i es, (i, es) ∈ rs → ∃ n, ns' !! i = Some n ∧ ∃ e es', es = e :: es' ∧
      tn_box n = fold_box (ebox bs e) (ebox bs <$> es') }.

Lemma seq_split a n k : k ≤ n → seq a n = seq a k ++ seq (a + k) (n - k).
Proof using Type. intros. rewrite <- seq_app. f_equal. lia. Qed.

Lemma recurse_build_spec bs max : max ≥ 1 → bs ≠ [] → ∀ fuel ns ids0 idx,
  ids0 ≠ [] → (∀ i, i ∈ ids0 → i < length bs) → idx < length ns → length ids0 ≤ fuel →
  ∃ ns' rs t, recurse_build fuel bs max ns ids0 idx = Ok (ns', rs) ∧ built bs max ns ns' ids0 idx rs t.
Proof using O Hsrt mid_mono.
  intros Hmax Hbs. induction fuel as [|fuel IH]; intros ns ids0 idx Hne Hin Hidx Hf.
  { destruct ids0; [done|]. simpl in Hf. lia. }
  cbn [StaticModel.recurse_build]. rewrite bool_decide_true by done. cbn [assert_ mbind res_bind].
  destruct ids0 as [|i0 rest]; [done|].
  destruct (lookup_lt_is_Some_2 bs i0) as [b0 Hb0]; [apply Hin; by left|].
  rewrite Hb0. cbn [opt_res mbind res_bind].
  rewrite fold_ok by (intros i Hi; apply Hin; by right). cbn [mbind res_bind].
  set (sb := fold_box b0 _).
  rewrite nupd_ok by done. cbn [mbind res_bind].
  destruct (lookup_lt_is_Some_2 ns idx Hidx) as [n0 Hn0].
  set (ns1 := alter (TreeModel.set_box sb) idx ns).
  assert (Hn1 : ns1 !! idx = Some (TreeModel.set_box sb n0)) by (subst ns1; by rewrite list_lookup_alter, Hn0).
  assert (Hs1 : ∀ i, i ≠ idx → ns1 !! i = ns !! i) by (intros; subst ns1; by rewrite list_lookup_alter_ne).
  assert (Hl1 : length ns1 = length ns) by (subst ns1; by rewrite alter_length).
  assert (Heb0 : ebox bs i0 = b0) by (unfold ebox; by rewrite Hb0).
  assert (Hin_sb : ∀ i, i ∈ i0 :: rest → bin (ebox bs i) sb).
  { intros i Hi. apply fold_box_in. apply elem_of_cons in Hi as [->|Hi]; [rewrite Heb0; by left|].
    right. apply elem_of_list_fmap. exists i. done. }
  assert (Hleast : ∀ c, (∀ i, i ∈ i0 :: rest → bin (ebox bs i) c) → bin sb c).
  { intros c Hc. apply fold_box_least. intros b [->|Hb]%elem_of_cons.
    - rewrite <- Heb0. apply Hc. by left.
    - apply elem_of_list_fmap in Hb as (i & -> & Hi). apply Hc. by right. }
  destruct (decide (length (i0 :: rest) ≤ max)) as [Hsmall|Hbig].
  { rewrite nupd_ok by lia. cbn [mbind res_bind]. eexists _, _, (L idx). split; [done|].
    set (ns2 := alter _ idx ns1).
    assert (Hn2 : ns2 !! idx = Some (set_c1 None (TreeModel.set_box sb n0))) by (subst ns2; by rewrite list_lookup_alter, Hn1).
    assert (Hl2 : length ns2 = length ns) by (subst ns2; by rewrite alter_length).
    split; simpl.
    - done.
    - by rewrite Hl2, Nat.sub_diag.
    - lia.
    - intros i _ Hi. subst ns2. rewrite list_lookup_alter_ne by done. by apply Hs1.
    - eexists. split; [exact Hn2|done].
    - done.
    - eexists. split; [exact Hn2|done].
    - done.
    - by rewrite app_nil_r.
    - intros i es [= -> ->]%elem_of_list_singleton. done.
    - intros i es [= -> ->]%elem_of_list_singleton. eexists. split; [exact Hn2|]. exists i0, rest. split; [done|].
      simpl. by rewrite Heb0. }
  assert (Hge2 : length (i0 :: rest) ≥ 2) by lia.
  destruct (partition bs (i0 :: rest) sb) as [ids' mid] eqn:Hpart.
  destruct (partition_spec bs (i0 :: rest) b0 ((λ i, default box0 (bs !! i)) <$> rest) ids' mid) as (Hperm & Hmid).
  { done. }
  { simpl. by rewrite Hb0. }
  { exact Hpart. }
  rewrite nupd_ok by lia. cbn [mbind res_bind]. rewrite nupd_ok by (rewrite alter_length; lia). cbn [mbind res_bind].
  set (c1 := length ns1). set (ns3 := alter (set_c2 (Some (S c1))) idx _ ++ [snew; snew]).
  assert (Hl3 : length ns3 = S (S c1)).
  { subst ns3. rewrite app_length, !alter_length. simpl. unfold c1. lia. }
  assert (Hn3 : ns3 !! idx = Some (TN (tn_link n0) (Some c1) (Some (S c1)) sb (tn_h n0))).
  { subst ns3. rewrite lookup_app_l by (rewrite !alter_length; lia). rewrite !list_lookup_alter, Hn1. done. }
  assert (Hs3 : ∀ i, i < length ns → i ≠ idx → ns3 !! i = ns !! i).
  { intros i Hi Hne'. subst ns3. rewrite lookup_app_l by (rewrite !alter_length; lia).
    rewrite !list_lookup_alter_ne by done. by apply Hs1. }
  assert (Hlen' : length ids' = length (i0 :: rest)) by (by rewrite Hperm).
  assert (Hin' : ∀ i, i ∈ ids' → i < length bs) by (intros i Hi; apply Hin; by rewrite <- Hperm).
  destruct (IH ns3 (take mid ids') c1) as (ns4 & r1 & t1 & -> & B1).
  { intros E. apply (f_equal length) in E. rewrite take_length in E. simpl in E. lia. }
  { intros i Hi. apply Hin'. rewrite <- (take_drop mid ids'). apply elem_of_app. by left. }
  { lia. }
  { rewrite take_length. lia. }
  cbn [mbind res_bind].
  destruct (IH ns4 (drop mid ids') (S c1)) as (ns5 & r2 & t2 & -> & B2).
  { intros E. apply (f_equal length) in E. rewrite drop_length in E. simpl in E. lia. }
  { intros i Hi. apply Hin'. rewrite <- (take_drop mid ids'). apply elem_of_app. by right. }
  { pose proof (bu_len _ _ _ _ _ _ _ _ B1). lia. }
  { rewrite drop_length. lia. }
  cbn [mbind res_bind]. eexists _, _, (N idx t1 t2). split; [done|].
  pose proof (bu_len _ _ _ _ _ _ _ _ B1) as Hlen1. pose proof (bu_len _ _ _ _ _ _ _ _ B2) as Hlen2.
  pose proof (bu_ids _ _ _ _ _ _ _ _ B1) as Hids1. pose proof (bu_ids _ _ _ _ _ _ _ _ B2) as Hids2.
  pose proof (bu_id _ _ _ _ _ _ _ _ B1) as Hid1. pose proof (bu_id _ _ _ _ _ _ _ _ B2) as Hid2.
  assert (Hsame45 : ∀ i, i ∈ ids t1 → ns5 !! i = ns4 !! i).
  { intros i Hi. rewrite Hids1 in Hi. apply (bu_same _ _ _ _ _ _ _ _ B2).
    - apply elem_of_cons in Hi as [->|Hi]; [lia|]. apply elem_of_seq in Hi. lia.
    - apply elem_of_cons in Hi as [->|Hi]; [lia|]. apply elem_of_seq in Hi. lia. }
  assert (Hn5 : ns5 !! idx = Some (TN (tn_link n0) (Some c1) (Some (S c1)) sb (tn_h n0))).
  { rewrite (bu_same _ _ _ _ _ _ _ _ B2) by lia. rewrite (bu_same _ _ _ _ _ _ _ _ B1) by lia. done. }
  destruct (bu_box _ _ _ _ _ _ _ _ B1) as (m1 & Hm1 & _ & Hm1l).
  destruct (bu_box _ _ _ _ _ _ _ _ B2) as (m2 & Hm2 & _ & Hm2l).
  assert (Hm1' : ns5 !! c1 = Some m1).
  { rewrite Hsame45; [done|]. rewrite <- Hid1. apply bid_ids. }
  split; simpl.
  - done.
  - rewrite Hids1, Hids2, Hl3. constructor.
    rewrite (seq_split (length ns) (length ns5 - length ns) (S (S (length ns4 - S (S c1))))) by lia.
    simpl. assert (length ns = c1) as -> by lia. constructor.
    replace (c1 + S (S (length ns4 - S (S c1)))) with (length ns4) by lia.
    replace (length ns5 - c1 - S (S (length ns4 - S (S c1)))) with (length ns5 - length ns4) by lia.
    symmetry. apply Permutation_middle.
  - lia.
  - intros i Hi Hne'. rewrite (bu_same _ _ _ _ _ _ _ _ B2) by lia.
    rewrite (bu_same _ _ _ _ _ _ _ _ B1) by lia. by apply Hs3.
  - eexists. split; [exact Hn5|]. simpl. rewrite Hid1, Hid2. split_and!; try done.
    + eapply srep_ext; [exact Hsame45|]. apply B1.
    + apply B2.
  - split; [eapply sfit_ext; [exact Hsame45|]; apply B1|]. split; [apply B2|].
    eexists _, m1, m2. split; [exact Hn5|]. rewrite Hid1, Hid2. split_and!; try done; simpl.
    + apply Hm1l. intros i Hi. apply Hin_sb. rewrite <- Hperm, <- (take_drop mid ids'). apply elem_of_app. by left.
    + apply Hm2l. intros i Hi. apply Hin_sb. rewrite <- Hperm, <- (take_drop mid ids'). apply elem_of_app. by right.
  - eexists. split; [exact Hn5|]. done.
  - rewrite fmap_app, (bu_leaves _ _ _ _ _ _ _ _ B1), (bu_leaves _ _ _ _ _ _ _ _ B2). done.
  - rewrite fmap_app, concat_app, (bu_elems _ _ _ _ _ _ _ _ B1), (bu_elems _ _ _ _ _ _ _ _ B2), take_drop. done.
  - intros i es [Hi|Hi]%elem_of_app; [by eapply B1|by eapply B2].
  - intros i es [Hi|Hi]%elem_of_app.
    + destruct (bu_leafbox _ _ _ _ _ _ _ _ B1 i es Hi) as (n & Hn & e & es' & ? & ?). exists n.
      split; [|by exists e, es']. rewrite Hsame45; [done|]. apply leaves_ids.
      rewrite (bu_leaves _ _ _ _ _ _ _ _ B1). apply elem_of_list_fmap. by exists (i, es).
    + by apply (bu_leafbox _ _ _ _ _ _ _ _ B2).
Qed.

Lemma build_spec bs max :
  bs ≠ [] → max ≥ 1 →
  ∃ ns rs t, build bs max = Ok (ns, rs) ∧ bid t = 0 ∧ srep ns t ∧ sfit bin ns t ∧
    ids t ≡ₚ seq 0 (length ns) ∧ leaves t = rs.*1 ∧ concat (rs.*2) ≡ₚ seq 0 (length bs) ∧
    (∀ i es, (i, es) ∈ rs → es ≠ [] ∧ length es ≤ max) ∧
    (∀ i es, (i, es) ∈ rs → ∃ n, ns !! i = Some n ∧
       ∃ e es', es = e :: es' ∧ tn_box n = fold_box (ebox bs e) (ebox bs <$> es')).
Proof using O Hsrt mid_mono.
  intros Hbs Hmax. unfold StaticModel.build. rewrite bool_decide_true by done. cbn [assert_ mbind res_bind].
  destruct (recurse_build_spec bs max Hmax Hbs (S (length bs)) [snew] (seq 0 (length bs)) 0)
    as (ns & rs & t & -> & B).
  - destruct bs; done.
  - intros i Hi. apply elem_of_seq in Hi. lia.
  - simpl. lia.
  - rewrite seq_length; lia.
  - exists ns, rs, t. split; [done|]. pose proof (bu_len _ _ _ _ _ _ _ _ B) as Hl. simpl in Hl. split_and!; try apply B.
    rewrite (bu_ids _ _ _ _ _ _ _ _ B). simpl. destruct (length ns); [lia|]. simpl. by rewrite Nat.sub_0_r.
Qed.
End proofs.

(** Edges of triangle meshes. *)
From Verif Require Import Outcome BoxModel GeoModel TmeshModel TmeshSpec.
Local Open Scope nat_scope.

Lemma same_pair_iff p q : same_pair p q = true ↔ same_ends p q.
Proof.
  destruct p as [a b], q as [c d]. unfold same_pair, same_ends. simpl.
  rewrite orb_true_iff, !andb_true_iff, !Nat.eqb_eq. naive_solver.
Qed.
Lemma ends_sym p q : same_ends p q → same_ends q p.
Proof. destruct p, q. unfold same_ends. simpl. naive_solver. Qed.
Lemma ends_trans p q r : same_ends p q → same_ends q r → same_ends p r.
Proof. destruct p, q, r. unfold same_ends. simpl. naive_solver. Qed.
Lemma ends_refl p : same_ends p p.
Proof. by left. Qed.

Lemma find_edge_some p l k : find_edge p l = Some k → ∃ q, l !! k = Some q ∧ same_ends q p.
Proof.
  unfold find_edge. intros ([k' q] & H & Ek)%fmap_Some. simpl in Ek. subst.
  apply list_find_Some in H as (H & P & _). exists q. by rewrite <- same_pair_iff.
Qed.
Lemma find_edge_none p l : find_edge p l = None → ∀ q, q ∈ l → ¬ same_ends q p.
Proof.
  unfold find_edge. intros H%fmap_None. rewrite list_find_None, Forall_forall in H.
  intros q Hq E. apply (H q Hq). by apply same_pair_iff.
Qed.

(** The face is among the sides with these ends. *)
Definition user (l : list side) (q : nat * nat) (f : nat) : Prop := ∃ i0 i1, (f, i0, i1) ∈ l ∧ same_ends q (i0, i1).
Definition noted (l : list side) (q : nat * nat) (ab : option nat * option nat) : Prop :=
  ∃ a, ab.1 = Some a ∧ user l q a ∧ (∀ f, user l q f → a <= f) ∧
    match ab.2 with
    | None => ∀ f, user l q f → f = a
    | Some b => user l q b ∧ a < b ∧ ∀ f, user l q f → f <= b
    end.
Record inv (l : list side) (s : edges) : Prop := Inv {
  i_len : length (e_faces s) = length (e_pairs s);
  i_side : ∀ q, q ∈ e_pairs s → ∃ f, (f, q.1, q.2) ∈ l;
  i_once : ∀ k k' q q', e_pairs s !! k = Some q → e_pairs s !! k' = Some q' → same_ends q q' → k = k';
  i_oflen : length (e_of s) = length l;
  i_of : ∀ n f i0 i1, l !! n = Some (f, i0, i1) →
    ∃ k q, e_of s !! n = Some k ∧ e_pairs s !! k = Some q ∧ same_ends q (i0, i1);
  i_noted : ∀ k q ab, e_pairs s !! k = Some q → e_faces s !! k = Some ab → noted l q ab }.

Lemma user_snoc l q f i0 i1 g : user (l ++ [(f, i0, i1)]) q g ↔ user l q g ∨ (g = f ∧ same_ends q (i0, i1)).
Proof.
  unfold user. setoid_rewrite elem_of_app. setoid_rewrite elem_of_list_singleton. split.
  - intros (a & b & [H|[= -> -> ->]] & E); [left; eauto|by right].
  - intros [(a & b & H & E)|[-> E]]; eauto 10.
Qed.
Lemma noted_other l q f i0 i1 ab : ¬ same_ends q (i0, i1) → noted l q ab → noted (l ++ [(f, i0, i1)]) q ab.
Proof.
  intros N (a & E & U & L & M). exists a. split; [done|].
  assert (H : ∀ g, user (l ++ [(f, i0, i1)]) q g ↔ user l q g) by (intros g; rewrite user_snoc; naive_solver).
  split; [by apply H|]. split; [intros g Hg; apply L; by apply H|].
  destruct ab.2; [destruct M as (M1 & M2 & M3)|]; [split_and!; [by apply H|done|]|]; intros g Hg; apply H in Hg; auto.
Qed.
Lemma noted_again l q f i0 i1 ab : same_ends q (i0, i1) → noted l q ab → (∀ g, user l q g → g <= f) →
  noted (l ++ [(f, i0, i1)]) q (note_face f ab).
Proof.
  intros N (a & E & U & L & M) B. pose proof (B a U) as Ba. unfold note_face. rewrite E.
  destruct (Nat.eqb_spec f a) as [->|Ha].
  - exists a. split; [done|]. split; [apply user_snoc; by left|].
    split; [intros g [Hg|[-> _]]%user_snoc; [by apply L|lia]|].
    destruct ab.2 as [b|]; [destruct M as (M1 & M2 & M3); specialize (B b M1); lia|].
    intros g [Hg|[-> _]]%user_snoc; [by apply M|done].
  - exists a. simpl. split; [done|]. split; [apply user_snoc; by left|].
    split; [intros g [Hg|[-> _]]%user_snoc; [by apply L|lia]|].
    split; [apply user_snoc; by right|]. split; [lia|]. intros g [Hg|[-> _]]%user_snoc; [by apply B|lia].
Qed.
Lemma noted_first l q f i0 i1 : same_ends q (i0, i1) → (∀ g, ¬ user l q g) →
  noted (l ++ [(f, i0, i1)]) q (note_face f (None, None)).
Proof.
  intros N B. exists f. simpl. split; [done|]. split; [apply user_snoc; by right|].
  split; intros g [Hg|[-> _]]%user_snoc; try done; by destruct (B g).
Qed.

Lemma add_side_inv nv l s f i0 i1 : inv l s → (∀ g j0 j1, (g, j0, j1) ∈ l → g <= f) → i0 < nv → i1 < nv →
  ∃ s', add_side nv s (f, i0, i1) = Ok s' ∧ inv (l ++ [(f, i0, i1)]) s'.
Proof.
  intros I B H0 H1. unfold add_side. rewrite (proj2 (Nat.ltb_lt _ _) H0), (proj2 (Nat.ltb_lt _ _) H1).
  assert (BU : ∀ q g, user l q g → g <= f) by (intros q g (a & b & Hg & _); by eapply B).
  destruct I as [I1 I2 I3 I4 I5 I6]. destruct (find_edge (i0, i1) (e_pairs s)) as [k|] eqn:Ef; simpl; eexists; (split; [reflexivity|]).
  - apply find_edge_some in Ef as (q & Hq & Eq). constructor; simpl.
    + by rewrite alter_length.
    + intros q' Hq'. destruct (I2 q' Hq') as [g Hg]. exists g. apply elem_of_app. by left.
    + done.
    + rewrite !app_length. simpl. lia.
    + intros n g j0 j1 Hn. apply lookup_app_Some in Hn as [Hn|[Hn Hl]].
      * destruct (I5 _ _ _ _ Hn) as (k' & q' & A & A'). exists k', q'. split; [|done]. apply lookup_app_l_Some, A.
      * apply list_lookup_singleton_Some in Hl as [Hl [= <- <- <-]]. exists k, q. split; [|done].
        rewrite lookup_app_r by lia. rewrite I4. by rewrite Hl.
    + intros k' q' ab Hk' Hab. destruct (decide (k = k')) as [<-|Hne].
      * rewrite Hq in Hk'. injection Hk' as <-. rewrite list_lookup_alter in Hab.
        apply fmap_Some in Hab as (ab0 & Hab & ->). apply noted_again; [done|by eapply I6|apply BU].
      * rewrite list_lookup_alter_ne in Hab by done. apply noted_other; [|by eapply I6].
        intros E. apply Hne. apply (I3 k k' q q' Hq Hk'). eapply ends_trans; [exact Eq|by apply ends_sym].
  - pose proof (find_edge_none _ _ Ef) as Fn. constructor; simpl.
    + rewrite alter_length, !app_length. simpl. lia.
    + intros q [Hq|Hq]%elem_of_app.
      * destruct (I2 q Hq) as [g Hg]. exists g. apply elem_of_app. by left.
      * apply elem_of_list_singleton in Hq as ->. exists f. apply elem_of_app. right. by apply elem_of_list_singleton.
    + intros k k' q q' Hk Hk' E.
      apply lookup_app_Some in Hk as [Hk|[Lk Hk]]; apply lookup_app_Some in Hk' as [Hk'|[Lk' Hk']].
      * by apply (I3 k k' q q').
      * apply list_lookup_singleton_Some in Hk' as [_ <-]. destruct (Fn q); [by eapply elem_of_list_lookup_2|done].
      * apply list_lookup_singleton_Some in Hk as [_ <-]. destruct (Fn q'); [by eapply elem_of_list_lookup_2|by apply ends_sym].
      * apply list_lookup_singleton_Some in Hk as [? _]. apply list_lookup_singleton_Some in Hk' as [? _]. lia.
    + rewrite !app_length. simpl. lia.
    + intros n g j0 j1 Hn. apply lookup_app_Some in Hn as [Hn|[Hn Hl]].
      * destruct (I5 _ _ _ _ Hn) as (k' & q' & A & A' & A''). exists k', q'. split_and!; [by apply lookup_app_l_Some..|done].
      * apply list_lookup_singleton_Some in Hl as [Hl [= <- <- <-]]. exists (length (e_pairs s)), (i0, i1). split_and!.
        -- rewrite lookup_app_r by lia. rewrite I4. by rewrite Hl.
        -- rewrite lookup_app_r by lia. by rewrite Nat.sub_diag.
        -- apply ends_refl.
    + intros k q ab Hk Hab. apply lookup_app_Some in Hk as [Hk|[Lk Hk]].
      * pose proof (lookup_lt_Some _ _ _ Hk). rewrite list_lookup_alter_ne in Hab by lia.
        rewrite lookup_app_l in Hab by lia. apply noted_other; [|by eapply I6].
        apply (Fn q). by eapply elem_of_list_lookup_2.
      * apply list_lookup_singleton_Some in Hk as [Hk <-]. assert (k = length (e_pairs s)) as -> by lia.
        rewrite list_lookup_alter, lookup_app_r, I1, Nat.sub_diag in Hab by lia. simpl in Hab. injection Hab as <-.
        apply noted_first; [apply ends_refl|]. intros g (j0 & j1 & Hj & Ej).
        apply elem_of_list_lookup in Hj as [n Hn]. destruct (I5 _ _ _ _ Hn) as (k & q & _ & Hk' & E).
        apply (Fn q); [by eapply elem_of_list_lookup_2|]. eapply ends_trans; [exact E|by apply ends_sym].
Qed.

Lemma add_faces nv ts : ∀ n l s, inv l s → (∀ g j0 j1, (g, j0, j1) ∈ l → g <= n) → in_range nv ts →
  ∃ s', add_sides nv s (sides n ts) = Ok s' ∧ inv (l ++ sides n ts) s'.
Proof.
  induction ts as [|[[a b] c] ts IH]; intros n l s I B R; [exists s; simpl; by rewrite app_nil_r|].
  destruct (R 0 a b c eq_refl) as (Ra & Rb & Rc).
  assert (Snoc : ∀ (l : list side) (i0 i1 : nat), (∀ g j0 j1 : nat, (g, j0, j1) ∈ l → g <= n) → ∀ g j0 j1 : nat, (g, j0, j1) ∈ l ++ [(n, i0, i1)] → g <= n).
  { intros l' i0 i1 H g j0 j1 [Hg|Hg]%elem_of_app; [by eapply H|]. apply elem_of_list_singleton in Hg as [= -> -> ->]. lia. }
  destruct (add_side_inv nv l s n a b I B Ra Rb) as (s1 & E1 & J1).
  destruct (add_side_inv nv _ s1 n b c J1 (Snoc _ _ _ B) Rb Rc) as (s2 & E2 & J2).
  destruct (add_side_inv nv _ s2 n c a J2 (Snoc _ _ _ (Snoc _ _ _ B)) Rc Ra) as (s3 & E3 & J3).
  destruct (IH (S n) _ s3 J3) as (s' & E' & J').
  { intros g j0 j1 Hg. pose proof (Snoc _ c a (Snoc _ b c (Snoc _ a b B)) g j0 j1 Hg). lia. }
  { intros f x y z Hf. apply (R (S f) x y z Hf). }
  exists s'. split.
  - cbn [sides sides_of app add_sides]. rewrite E1. cbn [mbind res_bind]. rewrite E2. cbn [mbind res_bind].
    rewrite E3. cbn [mbind res_bind]. done.
  - replace (l ++ sides n ((a, b, c) :: ts)) with ((((l ++ [(n, a, b)]) ++ [(n, b, c)]) ++ [(n, c, a)]) ++ sides (S n) ts); [done|].
    simpl. by rewrite <- !app_assoc.
Qed.
Lemma inv_init : inv [] (Edges [] [] []).
Proof. constructor; simpl; try done. intros q Hq. by apply elem_of_nil in Hq. Qed.

(** Sides of the list of triangles *)
Lemma sides_lookup ts : ∀ n k i t, ts !! k = Some t → i < 3 →
  sides n ts !! (3 * k + i) = Some (n + k, (nth_side t i).1, (nth_side t i).2).
Proof.
  induction ts as [|t' ts IH]; intros n k i t Hk Hi; [done|]. destruct k as [|k].
  - injection Hk as ->. destruct t as [[a b] c]. rewrite Nat.add_0_r. destruct i as [|[|[|]]]; [done..|lia].
  - simpl in Hk. destruct t' as [[a b] c]. replace (3 * S k + i) with (S (S (S (3 * k + i)))) by lia.
    change (sides (S n) ts !! (3 * k + i) = Some (n + S k, (nth_side t i).1, (nth_side t i).2)).
    rewrite (IH (S n) k i t Hk Hi). do 3 f_equal. lia.
Qed.
Lemma sides_elem ts : ∀ n f i0 i1, (f, i0, i1) ∈ sides n ts ↔ ∃ k t w, f = n + k ∧ ts !! k = Some t ∧ winds t i0 i1 w.
Proof.
  induction ts as [|[[a b] c] ts IH]; intros n f i0 i1.
  - simpl sides. split; [by intros ?%elem_of_nil|]. intros (k & t & w & _ & H & _). done.
  - assert (X : (f, i0, i1) ∈ sides_of n (a, b, c) ↔ f = n ∧ ∃ w, winds (a, b, c) i0 i1 w).
    { unfold sides_of, winds. rewrite !elem_of_cons, elem_of_nil. split.
      - intros [[= -> -> ->]|[[= -> -> ->]|[[= -> -> ->]|[]]]]; eauto 10.
      - intros [-> (w & [[= -> -> ->]|[[= -> -> ->]|[= -> -> ->]]])]; auto. }
    change (sides n ((a, b, c) :: ts)) with (sides_of n (a, b, c) ++ sides (S n) ts).
    rewrite elem_of_app, X, IH. split.
    + intros [[-> [w W]]|(k & t & w & -> & H & W)]; [exists 0, (a, b, c), w; split_and!; [lia|done..]|].
      exists (S k), t, w. split_and!; [lia|done..].
    + intros (k & t & w & -> & H & W). destruct k as [|k].
      * injection H as <-. left. split; [lia|by exists w].
      * right. exists k, t, w. split_and!; [lia|done..].
Qed.
Lemma user_side ts q f : user (sides 0 ts) q f ↔ has_side ts f q.
Proof.
  unfold user, has_side. split.
  - intros (i0 & i1 & (k & t & w & -> & H & W)%sides_elem & E). by exists t, i0, i1, w.
  - intros (t & i0 & i1 & w & H & W & E). exists i0, i1. split; [|done]. apply sides_elem. by exists f, t, w.
Qed.
Lemma close_lookup l : ∀ r k, close_edges l = Ok r → r !! k =
  (l !! k ≫= λ ab, (λ a, match ab.2 with None => (a, a, true) | Some b => (a, b, false) end) <$> ab.1).
Proof.
  induction l as [|[[a|] b] l IH]; intros r k H; simpl in H; [by injection H as <-| |done].
  apply bind_ok in H as (r' & Hr & [= <-]). destruct k as [|k]; [done|]. apply (IH r' k Hr).
Qed.
Lemma close_ok l : (∀ ab, ab ∈ l → is_Some ab.1) → ∃ r, close_edges l = Ok r ∧ length r = length l.
Proof.
  induction l as [|ab l IH]; intros H; [by exists []|]. destruct IH as (r & E & L); [intros; apply H; by right|].
  simpl. destruct (H ab) as [a Ha]; [by left|]. rewrite Ha, E. simpl. eexists. split; [done|]. simpl. by rewrite L.
Qed.

(** What is known of the edges *)
Record good_edges (ts : list tri) (pairs : list (nat * nat)) (of : list nat) (ends : list (nat * nat * bool)) : Prop := Good {
  g_len : length ends = length pairs;
  g_once : ∀ k k' q q', pairs !! k = Some q → pairs !! k' = Some q' → same_ends q q' → k = k';
  g_real : ∀ k q, pairs !! k = Some q → ∃ f t w, ts !! f = Some t ∧ winds t q.1 q.2 w;
  g_oflen : length of = length (sides 0 ts);
  g_of : ∀ f t i, ts !! f = Some t → i < 3 →
    ∃ k q, of !! (3 * f + i) = Some k ∧ pairs !! k = Some q ∧ same_ends q (nth_side t i);
  g_raw : ∀ n f i0 i1, sides 0 ts !! n = Some (f, i0, i1) →
    ∃ k q, of !! n = Some k ∧ pairs !! k = Some q ∧ same_ends q (i0, i1);
  g_ends : ∀ k q a b c, pairs !! k = Some q → ends !! k = Some (a, b, c) →
    has_side ts a q ∧ has_side ts b q ∧ (∀ f, has_side ts f q → a <= f <= b) ∧ (c = true ↔ a = b) }.
Lemma edges_good nv ts : in_range nv ts → ∃ s ends, add_sides nv (Edges [] [] []) (sides 0 ts) = Ok s ∧
  close_edges (e_faces s) = Ok ends ∧ good_edges ts (e_pairs s) (e_of s) ends.
Proof.
  intros R. destruct (add_faces nv ts 0 [] (Edges [] [] []) inv_init) as (s & E & I); [|done|].
  { intros g j0 j1 H. by apply elem_of_nil in H. }
  simpl in I. destruct I as [I1 I2 I3 I4 I5 I6].
  assert (N : ∀ k ab, e_faces s !! k = Some ab → ∃ q, e_pairs s !! k = Some q ∧ noted (sides 0 ts) q ab).
  { intros k ab Hk. destruct (lookup_lt_is_Some_2 (e_pairs s) k) as [q Hq].
    - rewrite <- I1. by eapply lookup_lt_Some.
    - exists q. split; [done|]. by eapply I6. }
  destruct (close_ok (e_faces s)) as (ends & C & L).
  { intros ab [k Hk]%elem_of_list_lookup. destruct (N k ab Hk) as (q & _ & a & -> & _). done. }
  exists s, ends. split; [done|]. split; [done|]. constructor; [lia|done| |done| |done|].
  - intros k q Hq. destruct (I2 q) as [f Hf]; [by eapply elem_of_list_lookup_2|].
    apply sides_elem in Hf as (k' & t & w & -> & H & W). by exists k', t, w.
  - intros f t i Hf Hi. pose proof (sides_lookup ts 0 f i t Hf Hi) as Hs. destruct (I5 _ _ _ _ Hs) as (k & q & A & B & D).
    exists k, q. split_and!; try done. by destruct (nth_side t i).
  - intros k q a b c Hq Hk. rewrite (close_lookup _ _ _ C) in Hk.
    destruct (e_faces s !! k) as [ab|] eqn:Ef; [|done]. simpl in Hk.
    pose proof (I6 k q ab Hq Ef) as (a' & Ea & U & Lo & M). rewrite Ea in Hk. simpl in Hk.
    setoid_rewrite <- user_side. destruct ab.2 as [b'|]; injection Hk as <- <- <-.
    + destruct M as (M1 & M2 & M3). split_and!; [done|done|intros f Hf; split; [by apply Lo|by apply M3]|split; [done|lia]].
    + split_and!; [done|done|intros f Hf; rewrite (M f Hf); lia|done].
Qed.
Lemma add_sides_range nv l : ∀ s s', add_sides nv s l = Ok s' → ∀ f i0 i1, (f, i0, i1) ∈ l → i0 < nv ∧ i1 < nv.
Proof.
  induction l as [|[[g j0] j1] l IH]; intros s s' H f i0 i1 Hf; [by apply elem_of_nil in Hf|].
  simpl in H. apply bind_ok in H as (s1 & H1 & H). apply elem_of_cons in Hf as [[= -> -> ->]|Hf]; [|by eapply IH].
  unfold add_side in H1. destruct (find_edge _ _); apply bind_ok in H1 as (? & H1 & _);
    unfold require_ in H1; destruct ((j0 <? nv) && (j1 <? nv)) eqn:E; try done;
    apply andb_true_iff in E as [E1%Nat.ltb_lt E2%Nat.ltb_lt]; done.
Qed.
Lemma range_needed nv ts s s' : add_sides nv s (sides 0 ts) = Ok s' → in_range nv ts.
Proof.
  intros H f a b c Hf. pose proof (add_sides_range nv _ _ _ H f) as R.
  destruct (R a b); [apply sides_elem; exists f, (a, b, c), c; split_and!; try done; by left|].
  destruct (R b c); [apply sides_elem; exists f, (a, b, c), a; split_and!; try done; right; by left|]. done.
Qed.

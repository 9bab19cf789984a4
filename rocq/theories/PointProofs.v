(** Proofs about contact points: representation and primitive steps. *)
From Verif Require Import Outcome PointModel.

Section ids.
Context {D : Type}.
Notation entry := (nat * (D * nat))%type.
Definition del_id (x : nat) (l : list entry) : list entry := filter (λ e, e.1 ≠ x) l.
Definition upd_id (x : nat) (d : D * nat) (l : list entry) : list entry :=
  (λ e, if decide (e.1 = x) then (x, d) else e) <$> l.

Lemma upd_id_ids x d l : (upd_id x d l).*1 = l.*1.
Proof. induction l as [|e l IH]; simpl; [done|]. f_equal; [|exact IH]. by case_decide. Qed.
Lemma upd_id_length x d l : length (upd_id x d l) = length l.
Proof. apply fmap_length. Qed.
Lemma upd_id_lookup x d l i : upd_id x d l !! i = (λ e, if decide (e.1 = x) then (x, d) else e) <$> l !! i.
Proof. apply list_lookup_fmap. Qed.
Lemma upd_id_app x d l k : upd_id x d (l ++ k) = upd_id x d l ++ upd_id x d k.
Proof. apply fmap_app. Qed.
Lemma upd_id_notin x d l : x ∉ l.*1 → upd_id x d l = l.
Proof.
  induction l as [|e l IH]; simpl; [done|]. rewrite not_elem_of_cons. intros [? ?].
  rewrite decide_False by done. f_equal. by apply IH.
Qed.
Lemma del_id_notin x l : x ∉ l.*1 → del_id x l = l.
Proof.
  induction l as [|e l IH]; simpl; [done|]. rewrite not_elem_of_cons. intros [? ?].
  unfold del_id. rewrite filter_cons_True by done. f_equal. by apply IH.
Qed.
Lemma del_id_app x l k : del_id x (l ++ k) = del_id x l ++ del_id x k.
Proof. apply filter_app. Qed.
Lemma del_id_split x d l1 l2 : NoDup (l1 ++ (x, d) :: l2).*1 → del_id x (l1 ++ (x, d) :: l2) = l1 ++ l2.
Proof.
  rewrite fmap_app. simpl. intros (_ & Hd & Hn)%NoDup_app. apply NoDup_cons in Hn as [Hn _].
  rewrite del_id_app. rewrite del_id_notin.
  - f_equal. unfold del_id. rewrite filter_cons_False by (simpl; tauto). by apply del_id_notin.
  - intros H. apply (Hd _ H). by left.
Qed.
Lemma del_id_ids x l y : y ∈ (del_id x l).*1 ↔ y ∈ l.*1 ∧ y ≠ x.
Proof.
  unfold del_id. rewrite !elem_of_list_fmap. split.
  - intros (e & -> & [? ?]%elem_of_list_filter). eauto.
  - intros [(e & -> & ?) ?]. exists e. split; [done|]. by apply elem_of_list_filter.
Qed.
Lemma del_id_NoDup x l : NoDup l.*1 → NoDup (del_id x l).*1.
Proof.
  induction l as [|e l IH]; simpl; [done|]. rewrite NoDup_cons. intros [H1 H2].
  unfold del_id. rewrite filter_cons. case_decide; [|by apply IH]. simpl. apply NoDup_cons. split; [|by apply IH].
  intros H3. apply (del_id_ids x l) in H3 as [? _]. done.
Qed.
Lemma del_upd_comm x y d l : x ≠ y → del_id x (upd_id y d l) = upd_id y d (del_id x l).
Proof.
  intros Hn. induction l as [|e l IH]; [done|]. cbn [upd_id fmap list_fmap]. unfold del_id at 1 2.
  rewrite !filter_cons. destruct (decide (e.1 = y)) as [E|E].
  - rewrite !decide_True; simpl; [|congruence..]. rewrite decide_True by done. f_equal. exact IH.
  - destruct (decide (e.1 ≠ x)); simpl; [rewrite decide_False by done; f_equal|]; exact IH.
Qed.
Lemma del_id_length x l : NoDup l.*1 → x ∈ l.*1 → S (length (del_id x l)) = length l.
Proof.
  intros Hn Hx. apply elem_of_list_fmap in Hx as ([y d] & -> & Hx). simpl in *.
  apply elem_of_list_split in Hx as (l1 & l2 & ->). rewrite del_id_split by done.
  rewrite !app_length. simpl. lia.
Qed.
Definition del_ids (xs : list nat) (l : list entry) : list entry := foldl (λ l x, del_id x l) l xs.
Lemma del_ids_ids xs l y : y ∈ (del_ids xs l).*1 ↔ y ∈ l.*1 ∧ y ∉ xs.
Proof.
  revert l. induction xs as [|x xs IH]; intros l; simpl.
  - split; [|tauto]. intros. split; [done|]. apply not_elem_of_nil.
  - rewrite IH, del_id_ids, not_elem_of_cons. tauto.
Qed.
Lemma del_ids_upd xs y d l : y ∉ xs → del_ids xs (upd_id y d l) = upd_id y d (del_ids xs l).
Proof.
  revert l. induction xs as [|x xs IH]; intros l; simpl; [done|]. rewrite not_elem_of_cons. intros [? ?].
  rewrite del_upd_comm by done. by apply IH.
Qed.
Lemma del_ids_NoDup xs l : NoDup l.*1 → NoDup (del_ids xs l).*1.
Proof. revert l. induction xs as [|x xs IH]; intros l Hl; simpl; [done|]. by apply IH, del_id_NoDup. Qed.
Lemma del_ids_snoc xs x l : del_ids (xs ++ [x]) l = del_id x (del_ids xs l).
Proof. unfold del_ids. by rewrite foldl_snoc. Qed.
Lemma del_ids_app xs l k : del_ids xs (l ++ k) = del_ids xs l ++ del_ids xs k.
Proof. revert l k. induction xs as [|x xs IH]; intros l k; simpl; [done|]. rewrite del_id_app. apply IH. Qed.
Lemma del_ids_notin xs l : (∀ x, x ∈ xs → x ∉ l.*1) → del_ids xs l = l.
Proof.
  revert l. induction xs as [|x xs IH]; intros l H; simpl; [done|].
  rewrite del_id_notin by (apply H; by left). apply IH. intros. apply H. by right.
Qed.
Lemma NoDup_ids_inj (l : list entry) i j e e' :
  NoDup l.*1 → l !! i = Some e → l !! j = Some e' → e.1 = e'.1 → i = j.
Proof.
  intros Hn Hi Hj He. apply (NoDup_lookup l.*1 i j e.1); [done|..]; rewrite list_lookup_fmap; [by rewrite Hi|by rewrite Hj, He].
Qed.
Lemma upd_id_elem x d l e : e ∈ upd_id x d l ↔ (e = (x, d) ∧ x ∈ l.*1) ∨ (e ∈ l ∧ e.1 ≠ x).
Proof.
  unfold upd_id. rewrite elem_of_list_fmap. split.
  - intros (e0 & -> & H). case_decide as Hd; [left|by right]. split; [done|]. apply elem_of_list_fmap. eauto.
  - intros [[-> (e0 & -> & H)%elem_of_list_fmap]|[H1 H2]]; [exists e0; by rewrite decide_True|exists e; by rewrite decide_False].
Qed.
End ids.

Section repr.
Context {V X : Type}.
Notation preg := (preg V X).
Notation rpoint := (rpoint V X).
Notation entry := (nat * (rpoint * nat))%type.
Notation astate := (gmap nat (list entry)).

(** The registry represents one list of points per manifold. *)
Record repr (A : astate) (f : nat) (r : preg) : Prop := {
  rp_fresh : pr_fresh r = f;
  rp_man m : pr_man r !! m = (λ l, (length l, fst <$> head l)) <$> A !! m;
  rp_get m l i x d : A !! m = Some l → l !! i = Some (x, d) →
    pr_cp r !! x = Some (CP m (fst <$> l !! S i) d.1 d.2);
  rp_own x c : pr_cp r !! x = Some c → ∃ l, A !! cp_parent c = Some l ∧ x ∈ l.*1;
  rp_nodup m l : A !! m = Some l → NoDup l.*1;
  rp_disj m1 m2 l1 l2 x : A !! m1 = Some l1 → A !! m2 = Some l2 → x ∈ l1.*1 → x ∈ l2.*1 → m1 = m2;
  rp_old m l x : A !! m = Some l → x ∈ l.*1 → x < f;
  rp_oldm m : is_Some (A !! m) → m < f
}.

Lemma ids_lookup (l : list entry) x : x ∈ l.*1 ↔ ∃ i d, l !! i = Some (x, d).
Proof.
  rewrite elem_of_list_fmap. split.
  - intros ([y d] & -> & (i & Hi)%elem_of_list_lookup). eauto.
  - intros (i & d & Hi). exists (x, d). split; [done|]. by eapply elem_of_list_lookup_2.
Qed.

(** Two registries representing the same lists are equal. *)
Lemma repr_unique A f r1 r2 : repr A f r1 → repr A f r2 → r1 = r2.
Proof.
  intros H1 H2. destruct r1 as [c1 m1 f1], r2 as [c2 m2 f2].
  assert (f1 = f2) as -> by (rewrite <- (rp_fresh _ _ _ H1) in H2; symmetry; exact (rp_fresh _ _ _ H2)).
  assert (m1 = m2) as ->.
  { apply map_eq. intros i. pose proof (rp_man _ _ _ H1 i) as E1. pose proof (rp_man _ _ _ H2 i) as E2. simpl in *. congruence. }
  f_equal. apply map_eq. intros x. apply option_eq. intros c.
  assert (HH : ∀ r1 r2, repr A f r1 → repr A f r2 → pr_cp r1 !! x = Some c → pr_cp r2 !! x = Some c).
  { intros r1 r2 R1 R2 Hc. destruct (rp_own _ _ _ R1 _ _ Hc) as (l & Hl & (i & d & Hi)%ids_lookup).
    rewrite (rp_get _ _ _ R2 _ _ _ _ _ Hl Hi). rewrite <- (rp_get _ _ _ R1 _ _ _ _ _ Hl Hi). done. }
  split; [exact (HH _ _ H1 H2)|exact (HH _ _ H2 H1)].
Qed.

Lemma repr_cp_size A f r m l : repr A f r → A !! m = Some l → length l ≤ size (pr_cp r).
Proof.
  intros HR Hl. rewrite <- size_dom. transitivity (size (list_to_set l.*1 : gset nat)).
  - rewrite size_list_to_set by (by eapply rp_nodup). by rewrite fmap_length.
  - apply subseteq_size. intros x Hx. apply elem_of_list_to_set in Hx. apply ids_lookup in Hx as (i & d & Hi).
    apply elem_of_dom. rewrite (rp_get _ _ _ HR _ _ _ _ _ Hl Hi). eauto.
Qed.

(** Changing the data of one point. *)
Lemma repr_set A f r m l x d0 d nx :
  repr A f r → A !! m = Some l → pr_cp r !! x = Some (CP m nx d0.1 d0.2) → x ∈ l.*1 →
  repr (<[m := upd_id x d l]> A) f (PReg (<[x := CP m nx d.1 d.2]> (pr_cp r)) (pr_man r) (pr_fresh r)).
Proof.
  intros HR Hl Hx Hin. pose proof (rp_nodup _ _ _ HR _ _ Hl) as Hnd.
  apply ids_lookup in Hin as (i0 & dx & Hi0). pose proof (rp_get _ _ _ HR _ _ _ _ _ Hl Hi0) as Hg.
  rewrite Hx in Hg. injection Hg as Hnx Hd1 Hd2.
  constructor; simpl.
  - apply HR.
  - intros m'. rewrite (rp_man _ _ _ HR). destruct (decide (m' = m)) as [->|].
    + rewrite lookup_insert, Hl. simpl. rewrite upd_id_length. do 2 f_equal. destruct l as [|e l]; [done|]. simpl. f_equal. by case_decide.
    + by rewrite lookup_insert_ne.
  - intros m' l' i y dy Hl' Hi. destruct (decide (m' = m)) as [->|Hm].
    + rewrite lookup_insert in Hl'. injection Hl' as <-. rewrite !upd_id_lookup in *.
      destruct (l !! i) as [[y0 dy0]|] eqn:E; [|done]. simpl in Hi.
      assert (Hnx' : fst <$> ((λ e, if decide (e.1 = x) then (x, d) else e) <$> l !! S i) = fst <$> l !! S i).
      { destruct (l !! S i) as [[n0 ?]|]; [|done]. simpl. f_equal. by destruct (decide (n0 = x)). }
      rewrite Hnx'. case_decide as Hd.
      * injection Hi as <- <-. simpl in Hd. subst y0. rewrite lookup_insert.
        assert (i = i0) as -> by (eapply NoDup_ids_inj; [exact Hnd|exact E|exact Hi0|done]). by rewrite Hnx.
      * injection Hi as <- <-. simpl in Hd. rewrite lookup_insert_ne by done. exact (rp_get _ _ _ HR _ _ _ _ _ Hl E).
    + rewrite lookup_insert_ne in Hl' by done. rewrite lookup_insert_ne; [exact (rp_get _ _ _ HR _ _ _ _ _ Hl' Hi)|].
      intros <-. apply Hm. eapply (rp_disj _ _ _ HR); [exact Hl'|exact Hl|..]; apply ids_lookup; eauto.
  - intros y c. destruct (decide (y = x)) as [->|].
    + rewrite lookup_insert. intros [= <-]. simpl. rewrite lookup_insert. eexists. split; [done|]. rewrite upd_id_ids. apply ids_lookup. eauto.
    + rewrite lookup_insert_ne by done. intros Hc. destruct (rp_own _ _ _ HR _ _ Hc) as (l' & Hl' & Hin').
      destruct (decide (cp_parent c = m)) as [E|].
      * rewrite E, lookup_insert. eexists. split; [done|]. rewrite upd_id_ids. rewrite E in Hl'. congruence.
      * rewrite lookup_insert_ne by done. eauto.
  - intros m' l'. destruct (decide (m' = m)) as [->|]; [rewrite lookup_insert|rewrite lookup_insert_ne by done; apply HR].
    intros [= <-]. by rewrite upd_id_ids.
  - intros m1 m2 l1 l2 y H1 H2 Hy1 Hy2.
    assert (HH : ∀ m' l', <[m := upd_id x d l]> A !! m' = Some l' → ∃ l0, A !! m' = Some l0 ∧ l'.*1 = l0.*1).
    { intros m' l'. destruct (decide (m' = m)) as [->|]; [rewrite lookup_insert|rewrite lookup_insert_ne by done; eauto].
      intros [= <-]. exists l. by rewrite upd_id_ids. }
    apply HH in H1 as (? & ? & E1). apply HH in H2 as (? & ? & E2). rewrite E1 in Hy1. rewrite E2 in Hy2. by eapply (rp_disj _ _ _ HR).
  - intros m' l' y. destruct (decide (m' = m)) as [->|]; [rewrite lookup_insert|rewrite lookup_insert_ne by done; apply HR].
    intros [= <-]. rewrite upd_id_ids. by eapply (rp_old _ _ _ HR).
  - intros m'. destruct (decide (m' = m)) as [->|]; [|rewrite lookup_insert_ne by done; apply HR].
    intros _. apply (rp_oldm _ _ _ HR). eauto.
Qed.

(** Creating a point. *)
Lemma repr_create (nz : rpoint → bool) A f r m l p :
  repr A f r → A !! m = Some l → length l ≤ max_contacts → nz p = true →
  ∃ r', create_contact_point nz r m p = Ok r' ∧ repr (<[m := (f, (p, 0)) :: l]> A) (S f) r'.
Proof.
  intros HR Hl Hlen Hp. unfold create_contact_point. rewrite Hp. simpl. rewrite (rp_man _ _ _ HR), Hl. simpl.
  rewrite bool_decide_true by done. simpl. eexists. split; [reflexivity|].
  rewrite (rp_fresh _ _ _ HR). pose proof (rp_nodup _ _ _ HR _ _ Hl) as Hnd.
  assert (Hf : ∀ m' l', A !! m' = Some l' → f ∉ l'.*1).
  { intros m' l' Hl' Hin. apply (rp_old _ _ _ HR _ _ _ Hl') in Hin. lia. }
  constructor; simpl.
  - done.
  - intros m'. destruct (decide (m' = m)) as [->|].
    + by rewrite !lookup_insert.
    + rewrite !lookup_insert_ne by done. apply HR.
  - intros m' l' i y dy Hl' Hi. destruct (decide (m' = m)) as [->|Hm].
    + rewrite lookup_insert in Hl'. injection Hl' as <-. destruct i as [|i]; simpl in *.
      * injection Hi as <- <-. rewrite lookup_insert. simpl. by destruct l.
      * rewrite lookup_insert_ne; [exact (rp_get _ _ _ HR _ _ _ _ _ Hl Hi)|]. intros <-. apply (Hf _ _ Hl). apply ids_lookup. eauto.
    + rewrite lookup_insert_ne in Hl' by done. rewrite lookup_insert_ne; [exact (rp_get _ _ _ HR _ _ _ _ _ Hl' Hi)|].
      intros <-. apply (Hf _ _ Hl'). apply ids_lookup. eauto.
  - intros y c. destruct (decide (y = f)) as [->|].
    + rewrite lookup_insert. intros [= <-]. simpl. rewrite lookup_insert. eexists. split; [done|]. by left.
    + rewrite lookup_insert_ne by done. intros Hc. destruct (rp_own _ _ _ HR _ _ Hc) as (l' & Hl' & Hin').
      destruct (decide (cp_parent c = m)) as [E|].
      * rewrite E, lookup_insert. eexists. split; [done|]. rewrite E in Hl'. assert (l' = l) as -> by congruence. by right.
      * rewrite lookup_insert_ne by done. eauto.
  - intros m' l'. destruct (decide (m' = m)) as [->|]; [rewrite lookup_insert|rewrite lookup_insert_ne by done; apply HR].
    intros [= <-]. simpl. apply NoDup_cons. eauto.
  - assert (HH : ∀ m' l', <[m := (f, (p, 0)) :: l]> A !! m' = Some l' →
      ∃ l0, A !! m' = Some l0 ∧ ((m' = m ∧ l'.*1 = f :: l0.*1) ∨ (m' ≠ m ∧ l' = l0))).
    { intros m' l'. destruct (decide (m' = m)) as [->|]; [rewrite lookup_insert|rewrite lookup_insert_ne by done; eauto 10].
      intros [= <-]. exists l. auto. }
    intros m1 m2 l1 l2 y H1 H2 Hy1 Hy2. apply HH in H1 as (k1 & ? & E1). apply HH in H2 as (k2 & ? & E2).
    destruct E1 as [[-> E1]|[? ->]], E2 as [[-> E2]|[? ->]]; try done.
    + rewrite E1 in Hy1. apply elem_of_cons in Hy1 as [->|Hy1]; [by destruct (Hf _ _ H0)|]. by eapply (rp_disj _ _ _ HR).
    + rewrite E2 in Hy2. apply elem_of_cons in Hy2 as [->|Hy2]; [by destruct (Hf _ _ H)|]. by eapply (rp_disj _ _ _ HR).
    + by eapply (rp_disj _ _ _ HR).
  - intros m' l' y. destruct (decide (m' = m)) as [->|]; [rewrite lookup_insert|rewrite lookup_insert_ne by done].
    + intros [= <-]. simpl. rewrite elem_of_cons. intros [->|Hy]; [lia|]. pose proof (rp_old _ _ _ HR _ _ _ Hl Hy). lia.
    + intros Hl' Hy. pose proof (rp_old _ _ _ HR _ _ _ Hl' Hy). lia.
  - intros m'. destruct (decide (m' = m)) as [->|].
    + intros _. assert (m < f) by (apply (rp_oldm _ _ _ HR); eauto). lia.
    + rewrite lookup_insert_ne by done. intros Hm. pose proof (rp_oldm _ _ _ HR _ Hm). lia.
Qed.

(** The search for the predecessor. *)
Lemma find_prev_spec A f r m l1 y dy x dx l2 fuel pre :
  repr A f r → A !! m = Some (pre ++ l1 ++ (y, dy) :: (x, dx) :: l2) → length l1 < fuel →
  find_prev fuel (pr_cp r) x (fst <$> head (l1 ++ (y, dy) :: (x, dx) :: l2)) = Ok y.
Proof.
  intros HR. revert fuel pre. induction l1 as [|[z dz] l1 IH]; intros fuel pre Hl Hf; (destruct fuel as [|fuel]; [lia|]); simpl in *.
  - rewrite (rp_get _ _ _ HR m _ (length pre) y dy Hl) by (by rewrite lookup_app_r, Nat.sub_diag). simpl.
    rewrite lookup_app_r by lia. replace (S (length pre) - length pre) with 1 by lia. simpl. by rewrite decide_True.
  - rewrite (rp_get _ _ _ HR m _ (length pre) z dz Hl) by (by rewrite lookup_app_r, Nat.sub_diag). simpl.
    rewrite lookup_app_r by lia. replace (S (length pre) - length pre) with 1 by lia. simpl.
    assert (Hh : (l1 ++ (y, dy) :: (x, dx) :: l2) !! 0 = head (l1 ++ (y, dy) :: (x, dx) :: l2)) by (by destruct l1).
    rewrite Hh. rewrite decide_False.
    + apply (IH _ (pre ++ [(z, dz)])); [|lia]. by rewrite <- (assoc_L (++)).
    + pose proof (rp_nodup _ _ _ HR _ _ Hl) as Hn. rewrite !fmap_app in Hn. simpl in Hn. rewrite fmap_app in Hn. simpl in Hn.
      apply NoDup_app in Hn as (_ & _ & Hn). apply NoDup_cons in Hn as [_ Hn]. apply NoDup_app in Hn as (_ & Hn1 & Hn).
      apply NoDup_cons in Hn as [Hn _]. destruct l1 as [|[w dw] l1]; simpl.
      * intros [= ->]. apply Hn. by left.
      * intros [= ->]. apply (Hn1 x); [by left|]. right. by left.
Qed.

(** Destroying a point. *)
Lemma repr_destroy A f r m l x :
  repr A f r → A !! m = Some l → x ∈ l.*1 →
  ∃ r', destroy_contact_point r x = Ok r' ∧ repr (<[m := del_id x l]> A) f r'.
Proof.
  intros HR Hl Hx. pose proof (rp_nodup _ _ _ HR _ _ Hl) as Hnd.
  apply elem_of_list_fmap in Hx as ([x' dx] & -> & Hx). simpl.
  apply elem_of_list_split in Hx as (l1 & l2 & ->). rename x' into x.
  rewrite del_id_split by done.
  assert (Hcx : pr_cp r !! x = Some (CP m (fst <$> head l2) dx.1 dx.2)).
  { rewrite (rp_get _ _ _ HR m _ (length l1) x dx Hl) by (by rewrite lookup_app_r, Nat.sub_diag).
    rewrite lookup_app_r by lia. replace (S (length l1) - length l1) with 1 by lia. simpl. by destruct l2. }
  unfold destroy_contact_point. rewrite Hcx. simpl. rewrite (rp_man _ _ _ HR), Hl. simpl.
  (* the unlinked map *)
  assert (Hun : ∃ cps, (if decide (fst <$> head (l1 ++ (x, dx) :: l2) = Some x) then Ok (pr_cp r, fst <$> head l2)
     else y ← find_prev (size (pr_cp r)) (pr_cp r) x (fst <$> head (l1 ++ (x, dx) :: l2));
          xc ← opt_res (pr_cp r !! y);
          Ok (<[y := set_next xc (fst <$> head l2)]> (pr_cp r), fst <$> head (l1 ++ (x, dx) :: l2)))
     = Ok (cps, fst <$> head (l1 ++ l2)) ∧
     (∀ i y dy, (l1 ++ l2) !! i = Some (y, dy) → cps !! y = Some (CP m (fst <$> (l1 ++ l2) !! S i) dy.1 dy.2)) ∧
     (∀ y, y ∉ l1.*1 → cps !! y = pr_cp r !! y)).
  { destruct l1 as [|e l1 _] using rev_ind.
    - simpl. rewrite decide_True by done. eexists. split; [done|]. split; [|done].
      intros i y dy Hi. exact (rp_get _ _ _ HR m _ (S i) y dy Hl Hi).
    - destruct e as [y dy].
      assert (Ha1 : (l1 ++ [(y, dy)]) ++ (x, dx) :: l2 = l1 ++ (y, dy) :: (x, dx) :: l2) by (by rewrite <- (assoc_L (++))).
      assert (Ha2 : (l1 ++ [(y, dy)]) ++ l2 = l1 ++ (y, dy) :: l2) by (by rewrite <- (assoc_L (++))).
      rewrite Ha1, Ha2 in *. rewrite decide_False.
      + simpl.
        rewrite (find_prev_spec A f r m l1 y dy x dx l2 (size (pr_cp r)) []); [|done| |].
        2:{ done. }
        2:{ pose proof (repr_cp_size _ _ _ _ _ HR Hl) as Hs. rewrite !app_length in Hs. simpl in Hs. lia. }
        simpl. rewrite (rp_get _ _ _ HR m _ (length l1) y dy Hl) by (by rewrite lookup_app_r, Nat.sub_diag).
        simpl. eexists. split; [|split].
        * do 2 f_equal. by destruct l1.
        * intros i z dz Hi. simpl in Hi.
          assert (Hny : NoDup (l1 ++ (y, dy) :: l2).*1).
          { rewrite !fmap_app in Hnd |- *. simpl in *.
            apply NoDup_app in Hnd as (? & H2 & H3). apply NoDup_app. split_and!; [done| |].
            - intros w Hw Hw2. apply (H2 w Hw). apply elem_of_cons in Hw2 as [->|]; [by left|]. right. by right.
            - apply NoDup_cons in H3 as [H3 H4]. apply NoDup_cons in H4 as [_ H4]. apply NoDup_cons. split; [|done].
              intros H5. apply H3. by right. }
          destruct (decide (z = y)) as [->|Hz].
          -- rewrite lookup_insert.
             assert (i = length l1) as ->.
             { apply (NoDup_ids_inj _ i (length l1) (y, dz) (y, dy) Hny Hi); [|done]. by rewrite lookup_app_r, Nat.sub_diag. }
             rewrite lookup_app_r, Nat.sub_diag in Hi by lia. simpl in Hi. injection Hi as <-.
             unfold set_next. simpl.
             rewrite lookup_app_r by lia. replace (S (length l1) - length l1) with 1 by lia. by destruct l2.
          -- rewrite lookup_insert_ne by done. simpl.
             destruct (decide (i < length l1)) as [Hlt|Hge].
             ++ rewrite lookup_app_l in Hi by done.
                rewrite (rp_get _ _ _ HR m _ i z dz Hl).
                2:{ by rewrite lookup_app_l. }
                do 2 f_equal.
                destruct (decide (S i < length l1)); [by rewrite !lookup_app_l by done|].
                rewrite !lookup_app_r by lia. replace (S i - length l1) with 0 by lia. done.
             ++ destruct (decide (i = length l1)) as [->|Hne].
                { rewrite lookup_app_r, Nat.sub_diag in Hi by lia. simpl in Hi. congruence. }
                rewrite lookup_app_r in Hi by lia. destruct (i - length l1) as [|j] eqn:Ej; [lia|]. simpl in Hi.
                rewrite (rp_get _ _ _ HR m _ (S i) z dz Hl).
                2:{ rewrite lookup_app_r by lia. replace (S i - length l1) with (S (S j)) by lia. done. }
                do 2 f_equal. rewrite !lookup_app_r by lia.
                replace (S (S i) - length l1) with (S (S (S j))) by lia. replace (S i - length l1) with (S (S j)) by lia. done.
        * intros z Hz. rewrite lookup_insert_ne; [done|]. intros <-. apply Hz. rewrite fmap_app. apply elem_of_app. right. by left.
      + rewrite fmap_app in Hnd. simpl in *. apply NoDup_app in Hnd as (_ & Hd & Hn).
        destruct l1 as [|[z dz] l1]; simpl.
        * intros [= ->]. apply NoDup_cons in Hn as [Hn _]. apply Hn. by left.
        * intros [= ->]. apply (Hd x); [by left|]. right. by left. }
  destruct Hun as (cps & -> & Hget & Hother). cbn [mbind res_bind].
  rewrite bool_decide_true by (rewrite app_length; simpl; lia). cbn [require_ mbind res_bind].
  eexists. split; [reflexivity|].
  assert (Hxn : x ∉ (l1 ++ l2).*1).
  { rewrite fmap_app in *. simpl in Hnd. apply NoDup_app in Hnd as (_ & Hd & [Hn _]%NoDup_cons). rewrite elem_of_app. intros [Hi|Hi]; [|done].
    apply (Hd x Hi). by left. }
  assert (Hsub : ∀ y, y ∈ (l1 ++ l2).*1 → y ∈ (l1 ++ (x, dx) :: l2).*1).
  { intros y. rewrite !fmap_app. simpl. rewrite !elem_of_app, elem_of_cons. tauto. }
  constructor; simpl.
  - apply HR.
  - intros m'. destruct (decide (m' = m)) as [->|].
    + rewrite !lookup_insert. simpl. do 2 f_equal. rewrite !app_length. simpl. lia.
    + rewrite !lookup_insert_ne by done. apply HR.
  - intros m' l' i y dy Hl' Hi. destruct (decide (m' = m)) as [->|Hm].
    + rewrite lookup_insert in Hl'. injection Hl' as <-. rewrite lookup_delete_ne; [by apply Hget|].
      intros <-. apply Hxn. apply ids_lookup. eauto.
    + rewrite lookup_insert_ne in Hl' by done.
      assert (Hyn : y ∉ (l1 ++ (x, dx) :: l2).*1).
      { intros Hin. apply Hm. eapply (rp_disj _ _ _ HR); [exact Hl'|exact Hl|apply ids_lookup; eauto|exact Hin]. }
      rewrite fmap_app in Hyn. simpl in Hyn. rewrite not_elem_of_app, not_elem_of_cons in Hyn.
      rewrite lookup_delete_ne by (intros ->; tauto). rewrite Hother by tauto. exact (rp_get _ _ _ HR _ _ _ _ _ Hl' Hi).
  - intros y c Hc. apply lookup_delete_Some in Hc as [Hyx Hc].
    destruct (decide (y ∈ l1.*1)) as [Hy|Hy].
    + assert (Hy' : y ∈ (l1 ++ l2).*1) by (rewrite fmap_app; apply elem_of_app; by left).
      pose proof Hy' as (i & d & Hi)%ids_lookup. rewrite (Hget _ _ _ Hi) in Hc. injection Hc as <-. simpl.
      rewrite lookup_insert. eauto.
    + rewrite Hother in Hc by done. destruct (rp_own _ _ _ HR _ _ Hc) as (l' & Hl' & Hin').
      destruct (decide (cp_parent c = m)) as [E|].
      * rewrite E, lookup_insert. eexists. split; [done|]. rewrite E in Hl'. assert (l' = l1 ++ (x, dx) :: l2) as -> by congruence.
        rewrite fmap_app in Hin' |- *. simpl in Hin'. rewrite elem_of_app, elem_of_cons in Hin'. rewrite elem_of_app. destruct Hin' as [?|[?|?]]; [tauto|congruence|tauto].
      * rewrite lookup_insert_ne by done. eauto.
  - intros m' l'. destruct (decide (m' = m)) as [->|]; [rewrite lookup_insert|rewrite lookup_insert_ne by done; apply HR].
    intros [= <-]. rewrite <- (del_id_split x dx l1 l2) by done. by apply del_id_NoDup.
  - assert (HH : ∀ m' l', <[m := l1 ++ l2]> A !! m' = Some l' → ∃ l0, A !! m' = Some l0 ∧ ∀ y, y ∈ l'.*1 → y ∈ l0.*1).
    { intros m' l'. destruct (decide (m' = m)) as [->|]; [rewrite lookup_insert|rewrite lookup_insert_ne by done; eauto].
      intros [= <-]. eauto. }
    intros m1 m2 k1 k2 y H1 H2 Hy1 Hy2. apply HH in H1 as (? & ? & E1). apply HH in H2 as (? & ? & E2).
    eapply (rp_disj _ _ _ HR); eauto.
  - intros m' l' y. destruct (decide (m' = m)) as [->|]; [rewrite lookup_insert|rewrite lookup_insert_ne by done; apply HR].
    intros [= <-] Hy. apply (rp_old _ _ _ HR _ _ _ Hl). by apply Hsub.
  - intros m'. destruct (decide (m' = m)) as [->|]; [|rewrite lookup_insert_ne by done; apply HR].
    intros _. apply (rp_oldm _ _ _ HR). eauto.
Qed.
End repr.

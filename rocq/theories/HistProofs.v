(** Proofs about action histories, dispatch and the packet queue. *)
From Verif Require Import HistModel HistSpec.
Local Open Scope Z_scope.

(** ** Sorted lists, find_if and filter *)
Lemma from_first_app {A} (p : A → bool) l :
  ∃ d, l = d ++ from_first p l ∧ Forall (λ x, p x = false) d.
Proof.
  induction l as [|x l (d & E & F)]; [by exists []|]. cbn. destruct (p x) eqn:X.
  - by exists [].
  - exists (x :: d). split; [by rewrite <- app_comm_cons, <- E|]. by constructor.
Qed.

Lemma from_first_filter {A} (R : A → A → Prop) (p : A → bool) l :
  StronglySorted R l → (∀ x y, R x y → p x = true → p y = true) →
  from_first p l = filter (λ x, p x = true) l.
Proof.
  intros H M. induction H as [|x l H IH F]; [done|]. cbn [from_first].
  destruct (p x) eqn:X.
  - rewrite filter_cons_True by done. f_equal. symmetry.
    clear IH H. induction F as [|y l F1 F2 IH]; [done|]. rewrite filter_cons_True by eauto. f_equal. done.
  - rewrite filter_cons_False by congruence. done.
Qed.

Lemma filter_ext_in {A} (P Q : A → Prop) `{!∀ x, Decision (P x), !∀ x, Decision (Q x)} (l : list A) :
  (∀ x, x ∈ l → P x ↔ Q x) → filter P l = filter Q l.
Proof.
  induction l as [|x l IH]; intros HPQ; [done|].
  rewrite !filter_cons. rewrite IH by (intros; apply HPQ; by right).
  specialize (HPQ x (elem_of_list_here x l)). destruct (decide (P x)), (decide (Q x)); tauto.
Qed.

Lemma filter_all {A} (P : A → Prop) `{!∀ x, Decision (P x)} (l : list A) : Forall P l → filter P l = l.
Proof. induction 1; [done|]. rewrite filter_cons_True by done. by f_equal. Qed.
Lemma filter_none {A} (P : A → Prop) `{!∀ x, Decision (P x)} (l : list A) : Forall (λ x, ¬ P x) l → filter P l = [].
Proof. induction 1; [done|]. rewrite filter_cons_False by done. done. Qed.

Lemma SS_app {A} (R : A → A → Prop) l k :
  StronglySorted R (l ++ k) ↔ StronglySorted R l ∧ StronglySorted R k ∧ ∀ x y, x ∈ l → y ∈ k → R x y.
Proof.
  induction l as [|a l IH]; cbn [app].
  - split; [intros H; split_and!; [constructor|done|by intros x y H1%elem_of_nil]|tauto].
  - split.
    + intros H. inversion H as [|? ? H1 H2]; subst. apply IH in H1 as (Hl & Hk & Hx).
      apply Forall_app in H2 as [F1 F2]. split_and!; [by constructor|done|].
      intros x y [->|X]%elem_of_cons Y; [by eapply Forall_forall in F2|by apply Hx].
    + intros (H1 & Hk & Hx). inversion H1; subst. constructor.
      * apply IH. split_and!; [done|done|]. intros x y X Y. apply Hx; [by right|done].
      * apply Forall_app. split; [done|]. apply Forall_forall. intros y Y. apply Hx; [by left|done].
Qed.
Lemma SS_filter {A} (R : A → A → Prop) (P : A → Prop) `{!∀ x, Decision (P x)} l :
  StronglySorted R l → StronglySorted R (filter P l).
Proof.
  induction 1 as [|x l HS IH F]; [constructor|]. rewrite filter_cons. case_decide; [|done].
  constructor; [done|]. apply Forall_forall. intros y [_ Y]%elem_of_list_filter. by eapply Forall_forall in F.
Qed.

(** ** The newest time *)
Lemma newest_nonneg l : 0 ≤ newest l.
Proof. induction l as [|e l IH]; unfold newest in *; cbn; lia. Qed.
Lemma newest_in l e : e ∈ l → e_time e ≤ newest l.
Proof.
  induction l as [|x l IH]; [by intros ?%elem_of_nil|].
  intros [->|H]%elem_of_cons; unfold newest in *; cbn; [lia|]. specialize (IH H). lia.
Qed.
Lemma newest_app l k : newest (l ++ k) = Z.max (newest l) (newest k).
Proof.
  induction l as [|x l IH]; cbn [app].
  - change (newest []) with 0. pose proof (newest_nonneg k). lia.
  - unfold newest in *. cbn. rewrite IH. lia.
Qed.
Lemma newest_le l t : 0 ≤ t → Forall (λ e, e_time e ≤ t) l → newest l ≤ t.
Proof. intros T. induction 1; unfold newest in *; cbn; lia. Qed.
Lemma newest_last l e : by_time l → 0 ≤ e_time e → last l = Some e → newest l = e_time e.
Proof.
  intros H P L. apply last_Some in L as [k ->]. apply SS_app in H as (_ & _ & H).
  rewrite newest_app. replace (newest [e]) with (e_time e) by (unfold newest; cbn; lia).
  apply Z.max_r. apply newest_le; [done|]. apply Forall_forall. intros x X. apply H; [done|]. by left.
Qed.

Lemma fresh_in acc l e : e ∈ fresh acc l ↔ e ∈ l ∧ newest acc < e_time e.
Proof. unfold fresh. rewrite elem_of_list_filter. tauto. Qed.
Lemma fresh_sorted acc l : by_time l → by_time (fresh acc l).
Proof. apply SS_filter. Qed.

(** What has been accepted stays sorted. *)
Definition acc_ok (acc : list entry) : Prop := by_time acc ∧ Forall (λ e, 0 < e_time e) acc.
Lemma acc_nil : acc_ok [].
Proof. split; constructor. Qed.
Lemma acc_fresh acc l : acc_ok acc → by_time l → acc_ok (acc ++ fresh acc l).
Proof.
  intros [H P] L. split.
  - apply SS_app. split_and!; [done|by apply fresh_sorted|].
    intros x y X [_ Y]%fresh_in. apply newest_in in X. lia.
  - apply Forall_app. split; [done|]. apply Forall_forall. intros x [_ X]%fresh_in.
    pose proof (newest_nonneg acc). lia.
Qed.

(** ** Merging *)
Lemma from_first_fresh acc l : by_time l → from_first (λ e, newest acc <? e_time e) l = fresh acc l.
Proof.
  intros L. rewrite (from_first_filter (λ a b, e_time a ≤ e_time b)); [|done|].
  - unfold fresh. apply filter_ext_in. intros x _. by rewrite Z.ltb_lt.
  - intros x y R. rewrite !Z.ltb_lt. lia.
Qed.
Lemma from_first_erase t l : by_time l → from_first (λ e, t <=? e_time e) l = filter (λ e, t ≤ e_time e) l.
Proof.
  intros L. rewrite (from_first_filter (λ a b, e_time a ≤ e_time b)); [|done|].
  - apply filter_ext_in. intros x _. by rewrite Z.leb_le.
  - intros x y R. rewrite !Z.leb_le. lia.
Qed.

(** The relation between a history and everything it ever accepted. *)
Definition hinv (acc : list entry) (h : hist) : Prop :=
  acc_ok acc ∧ (∃ d, acc = d ++ h_entries h) ∧ h_last h = newest acc.
Lemma hinv_new : hinv [] h_new.
Proof. split; [apply acc_nil|]. split; [by exists []|done]. Qed.

Lemma merge_ok acc h l :
  hinv acc h → l ≠ [] → by_time l →
  h_merge h l = Ok (Hist (h_entries h ++ fresh acc l) (newest (acc ++ fresh acc l))) ∧
  hinv (acc ++ fresh acc l) (Hist (h_entries h ++ fresh acc l) (newest (acc ++ fresh acc l))).
Proof.
  intros (A & (d & D) & L) N B.
  assert (A' : acc_ok (acc ++ fresh acc l)) by by apply acc_fresh.
  split.
  - unfold h_merge. rewrite bool_decide_true by done. cbn. rewrite L, from_first_fresh by done.
    destruct (last (h_entries h ++ fresh acc l)) as [e|] eqn:E.
    + f_equal. f_equal. symmetry.
      assert (E' : last (acc ++ fresh acc l) = Some e).
      { rewrite D at 1. rewrite <- app_assoc, last_app, E. done. }
      apply newest_last; [apply A'| |done]. apply last_Some in E' as [k E'].
      destruct A' as [_ P]. rewrite E' in P. apply Forall_app in P as [_ P]. inversion P; subst. lia.
    + apply last_None in E. apply app_eq_nil in E as [E1 E2].
      f_equal. f_equal. by rewrite E2, app_nil_r.
  - split; [done|]. split; [|done]. exists d. cbn [h_entries]. rewrite D at 1. by rewrite app_assoc.
Qed.

Lemma erase_ok acc h t :
  hinv acc h →
  h_entries (h_erase_until t h) = filter (λ e, t ≤ e_time e) (h_entries h) ∧ hinv acc (h_erase_until t h).
Proof.
  intros (A & (d & D) & L). split.
  - cbn. apply from_first_erase. destruct A as [A _]. rewrite D in A. by apply SS_app in A as (_ & A & _).
  - split; [done|]. split; [|done]. destruct (from_first_app (λ e, t <=? e_time e) (h_entries h)) as (d' & E & _).
    exists (d ++ d'). cbn. rewrite D at 1. rewrite E at 1. by rewrite app_assoc.
Qed.

Lemma hrun_ok os acc h :
  hinv acc h → Forall hop_ok os →
  ∃ h', hrun h os = Ok h' ∧ let s := foldl hspec (acc, h_entries h) os in
    h_entries h' = s.2 ∧ hinv s.1 h'.
Proof.
  revert acc h. induction os as [|o os IH]; intros acc h I F.
  - exists h. split; [done|]. split; [done|]. done.
  - inversion F as [|? ? O F']; subst. cbn [hrun foldl]. destruct o as [l|t]; cbn [hstep hspec fst snd].
    + destruct O as [N B]. destruct (merge_ok acc h l I N B) as [-> I']. cbn [mbind res_bind].
      destruct (IH _ _ I' F') as (h' & E & H). by exists h'.
    + destruct (erase_ok acc h t I) as [E1 I']. cbn [mbind res_bind].
      destruct (IH _ _ I' F') as (h' & E & H). exists h'. split; [done|]. by rewrite <- E1.
Qed.

Lemma merge_again acc h l h1 :
  hinv acc h → by_time l → h_merge h l = Ok h1 → h_merge h1 l = Ok h1.
Proof.
  intros I B E. assert (N : l ≠ []).
  { intros ->. by unfold h_merge in E; cbn in E. }
  destruct (merge_ok acc h l I N B) as [E1 I1]. rewrite E in E1. injection E1 as ->.
  destruct (merge_ok _ _ l I1 N B) as [-> _].
  assert (fresh (acc ++ fresh acc l) l = []) as ->.
  { apply filter_none. apply Forall_forall. intros x X Y.
    destruct (decide (newest acc < e_time x)).
    - assert (x ∈ fresh acc l) as Z by by apply fresh_in.
      assert (x ∈ acc ++ fresh acc l) as W%newest_in by (apply elem_of_app; by right). lia.
    - rewrite newest_app in Y. lia. }
  by rewrite !app_nil_r.
Qed.

(** ** Received windows of a stream of actions *)
Lemma take_drop_between {A} (l : list A) m e : (m ≤ e)%nat → take m l ++ take (e - m) (drop m l) = take e l.
Proof. intros. rewrite take_take_drop. by replace (m + (e - m))%nat with e by lia. Qed.


Lemma fresh_window A m s e :
  strictly_by_time A → Forall (λ x, 0 < e_time x) A → (s ≤ m)%nat → (m ≤ length A)%nat →
  fresh (take m A) (take (e - s) (drop s A)) = take (e - m) (drop m A).
Proof.
  intros B P S M.
  assert (N : ∀ x, x ∈ drop m A → newest (take m A) < e_time x).
  { intros x X. rewrite <- (take_drop m A) in B. apply SS_app in B as (_ & _ & B).
    assert (0 < e_time x) by (eapply Forall_forall in P; [done|]; rewrite <- (take_drop m A); apply elem_of_app; by right).
    clear P M. induction (take m A) as [|y l IH]; [done|].
    assert (e_time y < e_time x) by (apply B; [by left|done]).
    assert (newest l < e_time x) by (apply IH; intros; apply B; [by right|done]).
    unfold newest in *. cbn. lia. }
  destruct (decide (e ≤ m)%nat) as [L|L].
  - replace (e - m)%nat with 0%nat by lia. cbn [take]. apply filter_none. apply Forall_forall.
    intros x X. assert (X' : x ∈ take m A).
    { rewrite <- (take_drop_between A s m) by done. apply elem_of_app; right.
      destruct (decide (e < s)%nat).
      { replace (e - s)%nat with 0%nat in X by lia. cbn in X. by apply elem_of_nil in X. }
      assert ((m - s)%nat = ((e - s) + (m - e))%nat) as -> by lia.
      rewrite <- take_take_drop. apply elem_of_app. by left. }
    apply newest_in in X'. lia.
  - assert (take (e - s) (drop s A) = take (m - s) (drop s A) ++ take (e - m) (drop m A)) as ->.
    { replace (e - s)%nat with ((m - s) + (e - m))%nat by lia. rewrite <- take_take_drop.
      rewrite drop_drop. by replace (s + (m - s))%nat with m by lia. }
    unfold fresh. rewrite filter_app, filter_none, filter_all; [done| |].
    + apply Forall_forall. intros x X. apply N. rewrite <- (take_drop (e - m) (drop m A)). apply elem_of_app. by left.
    + apply Forall_forall. intros x X Y.
      assert (x ∈ take m A) as X'%newest_in; [|lia].
      rewrite <- (take_drop_between A s m) by done. apply elem_of_app. by right.
Qed.

(** ** Execution *)
Lemma exec_entries_ok exec due t0 es x t r :
  by_time es → exec_entries exec due t0 es = (x, t, r) →
  ∃ d, es = d ++ r ∧ x = filter (λ e, exec < e_time e) d ∧
    Forall (λ e, e_time e ≤ exec ∨ e_time e ≤ due) d ∧
    Forall (λ e, exec < e_time e ∧ due < e_time e) r ∧
    ((x = [] ∧ t = t0) ∨ ∃ e, last x = Some e ∧ t = e_time e).
Proof.
  intros B. revert t0 x t r. induction B as [|e es B IH F]; intros t0 x t r; cbn [exec_entries].
  - intros [= <- <- <-]. exists []. split_and!; try done. by left.
  - destruct (Z.leb_spec (e_time e) exec) as [L|L].
    + intros E. destruct (IH _ _ _ _ E) as (d & -> & -> & D & R & T).
      exists (e :: d). split; [done|]. split; [by rewrite filter_cons_False by lia|].
      split; [constructor; [by left|done]|]. done.
    + destruct (Z.ltb_spec due (e_time e)) as [L2|L2].
      * intros [= <- <- <-]. exists []. split_and!; try done; [|by left].
        constructor; [lia|]. eapply Forall_impl; [exact F|]. cbn. lia.
      * destruct (exec_entries exec due (e_time e) es) as [[x1 t1] r1] eqn:E.
        intros [= <- <- <-]. destruct (IH _ _ _ _ E) as (d & -> & -> & D & R & T).
        exists (e :: d). split; [done|]. split; [by rewrite filter_cons_True by lia|].
        split; [constructor; [by right|done]|]. split; [done|]. right.
        destruct T as [[-> ->]|(e' & T1 & T2)]; [by exists e|]. exists e'. split; [|done].
        by rewrite last_cons, T1.
Qed.

Lemma of_entity_app e a b : of_entity e (a ++ b) = of_entity e a ++ of_entity e b.
Proof. unfold of_entity. by rewrite filter_app, fmap_app. Qed.
Lemma of_entity_self e (x : list entry) : of_entity e ((λ a, (e, a)) <$> x) = x.
Proof.
  unfold of_entity. rewrite filter_all.
  - rewrite <- list_fmap_compose. by apply list_fmap_id.
  - apply Forall_forall. intros y (a & -> & _)%elem_of_list_fmap. done.
Qed.
Lemma of_entity_other e e' (x : list entry) : e' ≠ e → of_entity e ((λ a, (e', a)) <$> x) = [].
Proof.
  intros N. unfold of_entity. rewrite filter_none; [done|].
  apply Forall_forall. intros y (a & -> & _)%elem_of_list_fmap. done.
Qed.
Lemma of_entity_in e a log : a ∈ of_entity e log ↔ (e, a) ∈ log.
Proof.
  unfold of_entity. rewrite elem_of_list_fmap. split.
  - intros ([e' a'] & -> & [X Y]%elem_of_list_filter). cbn in *. by subst.
  - intros H. exists (e, a). split; [done|]. by apply elem_of_list_filter.
Qed.

Section dispatch.
  Context (own : nat → nat) (ents : list nat).
  (** Entity [e] is the only one of its owner. *)
  Definition solo (e : nat) : Prop := ∀ e', e' ∈ ents → own e' = own e → e' = e.

  (** One entity: [acc] everything accepted for it, [log] everything executed. *)
  Record einv (log : list (nat * entry)) (acc : list entry) (x : nat * nat * hist) : Prop := {
    ei_own : x.1.2 = own x.1.1;
    ei_acc : acc_ok acc;
    ei_last : h_last x.2 = newest acc;
    ei_done : ∃ d, acc = d ++ h_entries x.2 ∧
      (∀ a b, a ∈ d → b ∈ h_entries x.2 → e_time a < e_time b) ∧
      of_entity x.1.1 log `sublist_of` d ∧
      (∀ a, a ∈ d → (x.1.1, a) ∈ log ∨
         ∃ e' a', (e', a') ∈ log ∧ own e' = own x.1.1 ∧ e' ≠ x.1.1 ∧ e_time a ≤ e_time a') ∧
      (solo x.1.1 → of_entity x.1.1 log = d) }.

  Record dinv (log : list (nat * entry)) (acc : nat → list entry) (hs : list (nat * nat * hist)) (m : gmap nat Z) : Prop := {
    di_ents : (λ x, x.1.1) <$> hs = ents;
    di_each : Forall (λ x, einv log (acc x.1.1) x) hs;
    di_exec : ∀ c, exec_of m c = 0 ∨ ∃ e a, (e, a) ∈ log ∧ own e = c ∧ exec_of m c = e_time a;
    di_log : ∀ e a, (e, a) ∈ log → e ∈ ents }.

  Lemma einv_other log acc x e (y : list entry) :
    e ≠ x.1.1 → einv log acc x → einv (log ++ ((λ a, (e, a)) <$> y)) acc x.
  Proof.
    intros N [O A L (d & D1 & D2 & D3 & D4 & D5)]. split; try done. exists d.
    rewrite of_entity_app, of_entity_other, app_nil_r by done. split_and!; try done.
    intros a Ha. destruct (D4 a Ha) as [X|(e' & a' & X & Y)].
    - left. apply elem_of_app. by left.
    - right. exists e', a'. split; [|done]. apply elem_of_app. by left.
  Qed.

  Lemma dispatch_one log acc pre e c h suf m due x t r :
    NoDup ents → dinv log acc (pre ++ (e, c, h) :: suf) m →
    exec_entries (exec_of m c) due (exec_of m c) (h_entries h) = (x, t, r) →
    dinv (log ++ ((λ a, (e, a)) <$> x)) acc (pre ++ (e, c, Hist r (h_last h)) :: suf) (<[c := t]> m) ∧
    Forall (λ a, e_time a ≤ due) x ∧ Forall (λ a, due < e_time a) r.
  Proof.
    intros ND [DE DF DX DL] E.
    pose proof DF as DF0. rewrite Forall_app, Forall_cons in DF. destruct DF as (F1 & F2 & F3).
    assert (NE : e ∉ ((λ x, x.1.1) <$> pre) ∧ e ∉ ((λ x, x.1.1) <$> suf)).
    { rewrite <- DE, fmap_app, fmap_cons in ND. cbn in ND. apply NoDup_app in ND as (_ & N2 & N3).
      apply NoDup_cons in N3 as [N3 _]. split; [|done]. intros X. apply (N2 e X). by left. }
    assert (EI : e ∈ ents). { rewrite <- DE, fmap_app, fmap_cons. apply elem_of_app. right. by left. }
    destruct F2 as [O A L (d & D1 & D2 & D3 & D4 & D5)]. cbn [fst snd] in *.
    assert (B : by_time (h_entries h)). { destruct A as [A _]. rewrite D1 in A. by apply SS_app in A as (_ & A & _). }
    destruct (exec_entries_ok _ _ _ _ _ _ _ B E) as (y & Y1 & Y2 & Y3 & Y4 & Y5).
    split; [split|split].
    - by rewrite <- DE, !fmap_app, !fmap_cons.
    - apply Forall_app. split; [|constructor].
      + eapply Forall_impl; [apply Forall_and; split; [exact F1|]|].
        { apply Forall_forall. intros z Z. exact Z. }
        cbn. intros z [Z1 Z2]. apply einv_other; [|done]. intros ->. apply (proj1 NE).
        apply elem_of_list_fmap. by exists z.
      + split; cbn [fst snd h_last h_entries]; try done. exists (d ++ y).
        split; [by rewrite D1, Y1, app_assoc|].
        assert (FX : ∀ a, a ∈ y → exec_of m c < e_time a → a ∈ x).
        { intros a Ha Hb. rewrite Y2. by apply elem_of_list_filter. }
        split; [|split; [|split]].
        * intros a b [Ha|Ha]%elem_of_app Hb.
          -- apply D2; [done|]. rewrite Y1. apply elem_of_app. by right.
          -- eapply Forall_forall in Y3; [|exact Ha]. eapply Forall_forall in Y4; [|exact Hb]. cbn in *. lia.
        * rewrite of_entity_app, of_entity_self. apply sublist_app; [done|].
          rewrite Y2. clear. induction y as [|a y IH]; [done|]. rewrite filter_cons. case_decide.
          -- by constructor.
          -- by constructor.
        * intros a [Ha|Ha]%elem_of_app.
          -- destruct (D4 a Ha) as [X|(e' & a' & X & Y)]; [left; apply elem_of_app; by left|].
             right. exists e', a'. split; [|done]. apply elem_of_app. by left.
          -- destruct (decide (exec_of m c < e_time a)) as [Z|Z].
             { left. apply elem_of_app. right. apply elem_of_list_fmap. exists a. split; [done|]. by apply FX. }
             assert (PA : 0 < e_time a).
             { destruct A as [_ A]. eapply Forall_forall in A; [exact A|]. rewrite D1, Y1.
               apply elem_of_app. right. apply elem_of_app. by left. }
             destruct (DX c) as [X|(e' & a' & X1 & X2 & X3)]; [lia|].
             destruct (decide (e' = e)) as [->|N].
             ++ exfalso. assert (a' ∈ d).
                { eapply elem_of_submseteq; [by apply of_entity_in|]. by apply sublist_submseteq. }
                assert (e_time a' < e_time a); [|lia]. apply D2; [done|]. rewrite Y1. apply elem_of_app. by left.
             ++ right. exists e', a'. split; [apply elem_of_app; by left|]. split_and!; [congruence|done|lia].
        * intros S. rewrite of_entity_app, of_entity_self, (D5 S). f_equal. rewrite Y2.
          apply filter_all. apply Forall_forall. intros a Ha.
          assert (PA : 0 < e_time a).
          { destruct A as [_ A]. eapply Forall_forall in A; [exact A|]. rewrite D1, Y1.
            apply elem_of_app. right. apply elem_of_app. by left. }
          destruct (DX c) as [X|(e' & a' & X1 & X2 & X3)]; [lia|].
          assert (e' = e) as -> by (apply S; [by eapply DL|congruence]).
          rewrite X3. apply D2.
          -- rewrite <- (D5 S). by apply of_entity_in.
          -- rewrite Y1. apply elem_of_app. by left.
      + eapply Forall_impl; [apply Forall_and; split; [exact F3|]|].
        { apply Forall_forall. intros z Z. exact Z. }
        cbn. intros z [Z1 Z2]. apply einv_other; [|done]. intros ->. apply (proj2 NE).
        apply elem_of_list_fmap. by exists z.
    - intros c'. unfold exec_of. destruct (decide (c' = c)) as [->|N].
      + rewrite lookup_insert. cbn. destruct Y5 as [[-> ->]|(a & Y5 & ->)].
        * destruct (DX c) as [X|(e' & a' & X1 & X2 & X3)]; [by left|]. right. exists e', a'.
          split; [apply elem_of_app; by left|done].
        * right. exists e, a. split_and!; [|congruence|done]. apply elem_of_app. right.
          apply elem_of_list_fmap. exists a. split; [done|]. apply last_Some in Y5 as [k ->].
          apply elem_of_app. right. by left.
      + rewrite lookup_insert_ne by done. destruct (DX c') as [X|(e' & a' & X1 & X2 & X3)]; [by left|].
        right. exists e', a'. split; [apply elem_of_app; by left|done].
    - intros e' a' [X|X]%elem_of_app; [by eapply DL|].
      apply elem_of_list_fmap in X as (? & [= -> ->] & _). done.
    - rewrite Y2. apply Forall_forall. intros a [Ha Hb]%elem_of_list_filter.
      eapply Forall_forall in Y3; [|exact Hb]. cbn in *. lia.
    - eapply Forall_impl; [exact Y4|]. cbn. lia.
  Qed.

  Lemma dispatch_ok due log acc suf pre m log' suf' m' :
    NoDup ents → dinv log acc (pre ++ suf) m →
    dispatch due suf m = (log', suf', m') →
    dinv (log ++ log') acc (pre ++ suf') m' ∧
    (∀ e a, (e, a) ∈ log' → e_time a ≤ due (own e)) ∧
    Forall (λ x, Forall (λ a, due x.1.2 < e_time a) (h_entries x.2)) suf'.
  Proof.
    intros ND. revert log pre m log' suf' m'.
    induction suf as [|[[e c] h] suf IH]; intros log pre m log' suf' m' I; cbn [dispatch].
    - intros [= <- <- <-]. rewrite !app_nil_r in *. split; [done|]. split; [|constructor].
      by intros ? ? ?%elem_of_nil.
    - assert (OC : c = own e).
      { destruct I as [_ F _ _]. rewrite Forall_app, Forall_cons in F. destruct F as (_ & F & _).
        by destruct F. }
      destruct (h_entries h) as [|a es] eqn:HE.
      + destruct (dispatch due suf m) as [[l1 s1] m1] eqn:E. intros [= <- <- <-].
        rewrite (cons_middle _ pre suf), app_assoc in I.
        destruct (IH _ _ _ _ _ _ I E) as (I' & X & Y).
        rewrite (cons_middle _ pre s1), app_assoc. split; [done|]. split; [done|].
        constructor; [|done]. cbn. rewrite HE. constructor.
      + rewrite <- HE. clear HE a es.
        destruct (exec_entries (exec_of m c) (due c) (exec_of m c) (h_entries h)) as [[x t] r] eqn:EE.
        destruct (dispatch due suf (<[c := t]> m)) as [[l1 s1] m1] eqn:E. intros [= <- <- <-].
        destruct (dispatch_one _ _ _ _ _ _ _ _ _ _ _ _ ND I EE) as (I1 & X1 & R1).
        rewrite (cons_middle _ pre suf), app_assoc in I1.
        destruct (IH _ _ _ _ _ _ I1 E) as (I2 & X2 & R2).
        rewrite <- !app_assoc in I2. cbn [app] in I2.
        split; [by rewrite (cons_middle _ pre s1)|]. split.
        * intros e' a' [H|H]%elem_of_app; [|by apply X2].
          apply elem_of_list_fmap in H as (a & [= -> ->] & H). rewrite <- OC.
          by eapply Forall_forall in X1.
        * constructor; [|done]. done.
  Qed.

  Lemma merge_at_ok e l log acc m hs pre :
    NoDup ents → dinv log acc (pre ++ hs) m → e ∈ (λ x, x.1.1) <$> hs → l ≠ [] → by_time l →
    ∃ hs', merge_at e l hs = Ok hs' ∧
      dinv log (λ e', if decide (e = e') then acc e' ++ fresh (acc e') l else acc e') (pre ++ hs') m.
  Proof.
    intros ND. revert pre. induction hs as [|[[e' c] h] hs IH]; intros pre I HE N B; [by apply elem_of_nil in HE|].
    cbn [merge_at]. case_bool_decide as D.
    - subst e'. destruct I as [DE DF DX DL].
      assert (NE : e ∉ ((λ x, x.1.1) <$> pre) ∧ e ∉ ((λ x, x.1.1) <$> hs)).
      { rewrite <- DE, fmap_app, fmap_cons in ND. cbn in ND. apply NoDup_app in ND as (_ & N2 & N3).
        apply NoDup_cons in N3 as [N3 _]. split; [|done]. intros X. apply (N2 e X). by left. }
      rewrite Forall_app, Forall_cons in DF. destruct DF as (F1 & F2 & F3).
      destruct F2 as [O A L (d & D1 & D2 & D3 & D4 & D5)]. cbn [fst snd] in *.
      destruct (merge_ok (acc e) h l) as [-> (A' & _ & _)]; [|done|done|].
      { split; [done|]. split; [by exists d|done]. }
      cbn [mbind res_bind]. eexists. split; [done|]. split.
      + by rewrite <- DE, !fmap_app, !fmap_cons.
      + assert (K : ∀ z : nat * nat * hist, z.1.1 ≠ e → einv log (acc z.1.1) z →
          einv log (if decide (e = z.1.1) then acc z.1.1 ++ fresh (acc z.1.1) l else acc z.1.1) z).
        { intros z Z1 Z2. by rewrite decide_False by done. }
        apply Forall_app. split; [|constructor].
        * apply Forall_forall. intros z Z. apply K; [|by eapply Forall_forall in F1].
          intros <-. apply (proj1 NE). apply elem_of_list_fmap. by exists z.
        * cbn [fst snd]. rewrite decide_True by done. split; cbn [fst snd h_entries h_last]; try done.
          exists d. split; [rewrite D1 at 1; by rewrite app_assoc|]. split; [|done].
          intros a b Ha [Hb|[_ Hb]%fresh_in]%elem_of_app; [by apply D2|].
          assert (a ∈ acc e) as X%newest_in by (rewrite D1; apply elem_of_app; by left). lia.
        * apply Forall_forall. intros z Z. apply K; [|by eapply Forall_forall in F3].
          intros <-. apply (proj2 NE). apply elem_of_list_fmap. by exists z.
      + done.
      + done.
    - rewrite fmap_cons in HE. apply elem_of_cons in HE as [HE|HE]; [done|].
      rewrite (cons_middle _ pre hs), app_assoc in I.
      destruct (IH _ I HE N B) as (hs' & -> & I'). cbn [mbind res_bind]. eexists. split; [done|].
      by rewrite (cons_middle _ pre hs'), app_assoc.
  Qed.

  Lemma dinv_ext log acc acc' hs m : (∀ e, acc e = acc' e) → dinv log acc hs m → dinv log acc' hs m.
  Proof.
    intros H [DE DF DX DL]. split; try done. eapply Forall_impl; [exact DF|].
    cbn. intros x. by rewrite H.
  Qed.

  Lemma drun_ok evs log acc s :
    NoDup ents → dinv log acc (ds_hists s) (ds_exec s) → Forall (devent_ok ents) evs →
    ∃ s' logs, drun s evs = Ok (s', logs) ∧
      dinv (log ++ concat logs) (λ e, accepted e (acc e) evs) (ds_hists s') (ds_exec s').
  Proof.
    intros ND. revert log acc s. induction evs as [|ev evs IH]; intros log acc s I F.
    - exists s, []. cbn. split; [done|]. by rewrite app_nil_r.
    - inversion F as [|? ? O F']; subst. cbn [drun]. destruct ev as [e l|due]; cbn [dstep].
      + destruct O as (O1 & O2 & O3).
        destruct (merge_at_ok e l log acc (ds_exec s) (ds_hists s) []) as (hs & -> & I'); try done.
        { by rewrite (di_ents _ _ _ _ I). }
        cbn [mbind res_bind]. cbn [app] in I'.
        destruct (IH log _ (DServer hs (ds_exec s)) I' F') as (s' & logs & -> & I2).
        cbn [mbind res_bind]. eexists _, _. split; [done|]. cbn [concat app].
        eapply dinv_ext; [|exact I2]. intros e'. cbn [accepted]. done.
      + destruct (dispatch due (ds_hists s) (ds_exec s)) as [[l1 h1] m1] eqn:E.
        cbn [mbind res_bind]. destruct (dispatch_ok due log acc (ds_hists s) [] _ _ _ _ ND I E) as (I' & _).
        destruct (IH _ _ (DServer h1 m1) I' F') as (s' & logs & -> & I2). cbn [mbind res_bind].
        eexists _, _. split; [done|]. cbn [concat]. by rewrite app_assoc.
  Qed.
End dispatch.

(** Facts about sparse sets and folds. *)
From Verif Require Import Outcome IslModel.

Lemma fold_res_cons {A} (f : world → A → res world) w x l :
  fold_res f w (x :: l) = (w ← f w x; fold_res f w l).
Proof.
  unfold fold_res. cbn [foldl]. cbn [mbind res_bind]. destruct (f w x); cbn [mbind res_bind]; [done|..];
    (induction l; [done|]; cbn [foldl]; done).
Qed.
Lemma fold_res_app {A} (f : world → A → res world) w l l' :
  fold_res f w (l ++ l') = (w ← fold_res f w l; fold_res f w l').
Proof.
  revert w. induction l as [|x l IH]; intros w; [done|]. rewrite <- app_comm_cons, !fold_res_cons.
  destruct (f w x); cbn [mbind res_bind]; [apply IH|done..].
Qed.

(** A fold keeps an invariant on the part done and the part to do. *)
Lemma fold_res_ind {A} (f : world → A → res world) (P : list A → world → Prop) l w :
  P [] w →
  (∀ l1 x l2 w1, l = l1 ++ x :: l2 → P l1 w1 → ∃ w2, f w1 x = Ok w2 ∧ P (l1 ++ [x]) w2) →
  ∃ w', fold_res f w l = Ok w' ∧ P l w'.
Proof.
  intros H0 Hs.
  assert (∀ l2 l1 w1, l = l1 ++ l2 → P l1 w1 → ∃ w', fold_res f w1 l2 = Ok w' ∧ P l w') as H; [|by apply (H l [])].
  induction l2 as [|x l2 IH]; intros l1 w1 Hl HP.
  { exists w1. rewrite app_nil_r in Hl. by subst. }
  destruct (Hs l1 x l2 w1 Hl HP) as (w2 & Hw & HP2).
  rewrite fold_res_cons, Hw. cbn [mbind res_bind]. apply (IH (l1 ++ [x])); [|done]. by rewrite <- app_assoc.
Qed.
Lemma fold_res_inv {A} (f : world → A → res world) (P : list A → world → Prop) l w w' :
  fold_res f w l = Ok w' → P [] w →
  (∀ l1 x l2 w1 w2, l = l1 ++ x :: l2 → P l1 w1 → f w1 x = Ok w2 → P (l1 ++ [x]) w2) →
  P l w'.
Proof.
  intros H H0 Hs.
  assert (∀ l2 l1 w1, l = l1 ++ l2 → P l1 w1 → fold_res f w1 l2 = Ok w' → P l w') as G; [|by apply (G l [] w)].
  clear H H0. induction l2 as [|x l2 IH]; intros l1 w1 Hl HP Hf.
  { unfold fold_res in Hf. cbn in Hf. injection Hf as <-. rewrite app_nil_r in Hl. by subst. }
  rewrite fold_res_cons in Hf. apply bind_ok in Hf as (w2 & Hw & Hf).
  apply (IH (l1 ++ [x]) w2); [by rewrite <- app_assoc| |done]. by eapply Hs.
Qed.

Lemma elem_add_new x y l : y ∈ add_new x l ↔ y = x ∨ y ∈ l.
Proof. unfold add_new. case_decide; set_solver. Qed.
Lemma NoDup_add_new x l : NoDup l → NoDup (add_new x l).
Proof.
  unfold add_new. intros Hl. case_decide; [done|]. apply NoDup_app. split_and!; [done|set_solver|apply NoDup_singleton].
Qed.

Lemma ss_pop_absent x l : x ∉ l → ss_pop x l = l.
Proof.
  intros H. unfold ss_pop. destruct (list_find _ l) as [[i y]|] eqn:E; [|done].
  apply list_find_Some in E as (Hi & -> & _). exfalso. apply H. by eapply elem_of_list_lookup_2.
Qed.
Lemma ss_pop_perm x l : x ∈ l → l ≡ₚ x :: ss_pop x l.
Proof.
  intros H. unfold ss_pop.
  destruct (list_find (λ y, y = x) l) as [[i y]|] eqn:E.
  2:{ apply list_find_None in E. rewrite Forall_forall in E. exfalso. by eapply E. }
  apply list_find_Some in E as (Hi & -> & _).
  destruct (last l) as [z|] eqn:Hl; [|by apply last_None in Hl; subst].
  apply last_Some in Hl as (l' & ->). rewrite app_length. cbn [length].
  replace (length l' + 1 - 1) with (length l') by lia.
  destruct (decide (i < length l')) as [Hlt|Hge].
  - rewrite lookup_app_l in Hi by done. rewrite insert_app_l by done.
    rewrite take_app_alt by (by rewrite insert_length).
    rewrite <- (take_drop_middle l' i x Hi) at 1.
    rewrite insert_take_drop by done.
    rewrite <- !app_assoc. simpl. rewrite (Permutation_app_comm (drop _ _) [z]).
    simpl. by rewrite <- Permutation_middle.
  - assert (i = length l').
    { pose proof (lookup_lt_Some _ _ _ Hi) as Hb. rewrite app_length in Hb. cbn [length] in Hb. lia. }
    subst i. rewrite lookup_app_r in Hi by lia. rewrite Nat.sub_diag in Hi. simpl in Hi. injection Hi as ->.
    rewrite insert_app_r_alt by lia. rewrite Nat.sub_diag. simpl.
    rewrite take_app_alt by done. by rewrite Permutation_app_comm.
Qed.
Lemma ss_pop_spec x l : NoDup l → NoDup (ss_pop x l) ∧ ∀ y, y ∈ ss_pop x l ↔ y ∈ l ∧ y ≠ x.
Proof.
  intros Hl. destruct (decide (x ∈ l)) as [Hx|Hx].
  - pose proof (ss_pop_perm x l Hx) as Hp. rewrite Hp in Hl. apply NoDup_cons in Hl as [Hn Hl].
    split; [done|]. intros y. rewrite Hp at 2. rewrite elem_of_cons. split; [|naive_solver].
    intros Hy. split; [by right|]. by intros ->.
  - rewrite ss_pop_absent by done. split; [done|]. intros y. split; [|tauto]. intros Hy. split; [done|]. by intros ->.
Qed.
Lemma ss_pops_spec xs : ∀ l, NoDup l →
  NoDup (foldl (λ l x, ss_pop x l) l xs) ∧ ∀ y, y ∈ foldl (λ l x, ss_pop x l) l xs ↔ y ∈ l ∧ y ∉ xs.
Proof.
  induction xs as [|x xs IH]; intros l Hl; cbn [foldl]; [set_solver|].
  destruct (ss_pop_spec x l Hl) as [H1 H2]. destruct (IH _ H1) as [H3 H4]. split; [done|].
  intros y. rewrite H4, H2. set_solver.
Qed.
Lemma ss_erase_ok x l : x ∈ l → ss_erase x l = Ok (ss_pop x l).
Proof. intros H. unfold ss_erase. by rewrite bool_decide_true. Qed.
Lemma ss_push_ok x l : x ∉ l → ss_push x l = Ok (l ++ [x]).
Proof. intros H. unfold ss_push. by rewrite bool_decide_true. Qed.
Lemma ss_pushes_ok xs : ∀ l, NoDup (l ++ xs) → ss_pushes xs l = Ok (l ++ xs).
Proof.
  unfold ss_pushes. induction xs as [|x xs IH]; intros l Hl; [by rewrite app_nil_r|].
  cbn [foldl]. cbn [mbind res_bind]. rewrite ss_push_ok.
  - rewrite IH; [by rewrite <- app_assoc|]. by rewrite <- app_assoc.
  - intros Hx. apply NoDup_app in Hl as (_ & Hl & _). apply (Hl x Hx). set_solver.
Qed.
Lemma mapM_res_ok {A B} (f : A → res B) (g : A → B) l :
  (∀ a, a ∈ l → f a = Ok (g a)) → mapM_res f l = Ok (g <$> l).
Proof.
  unfold mapM_res. induction l as [|a l IH]; intros H; [done|]. cbn [foldr].
  rewrite H by set_solver. cbn [mbind res_bind]. rewrite IH by set_solver. done.
Qed.
Lemma elem_lst x l : x ∈ lst l ↔ x ∈ l.
Proof. apply elem_of_list_to_set. Qed.
Lemma elem_snoc {A} (x y : A) l : y ∈ l ++ [x] ↔ y ∈ l ∨ y = x.
Proof. rewrite elem_of_app, elem_of_list_singleton. done. Qed.
Lemma elem_one {A} (x y : A) : y ∈ [x] ↔ y = x.
Proof. apply elem_of_list_singleton. Qed.
Lemma elem_none {A} (y : A) : y ∈ [] ↔ False.
Proof. rewrite elem_of_nil. done. Qed.

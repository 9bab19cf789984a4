From Verif Require Import Outcome MapModel MapSpec.

(** Running a list of operations of a modelled class. *)
Fixpoint rrun {S O} (step : S → O → res S) (s : S) (ops : list O) : res S :=
  match ops with
  | [] => Ok s
  | o :: ops => s' ← step s o; rrun step s' ops
  end.

(** Refinement from a one-step simulation. *)
Lemma rrun_refines {A C O} (astep : A → O → option A) (cstep : C → O → res C) (R : A → C → Prop) :
  (∀ a c o a', R a c → astep a o = Some a' → ∃ c', cstep c o = Ok c' ∧ R a' c') →
  ∀ ops a c a', R a c → orun astep a ops = Some a' → ∃ c', rrun cstep c ops = Ok c' ∧ R a' c'.
Proof.
  intros Hs. induction ops as [|o ops IH]; intros a c a' HR; simpl.
  - intros [= ->]. eauto.
  - intros (a1 & H1 & H2)%bind_Some. destruct (Hs _ _ _ _ HR H1) as (c1 & -> & HR1). simpl. eauto.
Qed.

(** ** entity_map *)
Definition estep (m : emap) (o : eop) : res emap :=
  match o with
  | EInsert e l => em_insert m e l
  | EErase e => em_erase m e
  | EEraseLocal l => em_erase_local m l
  | EEraseIf p => Ok (em_erase_if m p)
  | ESwap => Ok (em_swap m)
  | EClear => Ok (em_clear m)
  end.

Definition erel (s : gset (nat * nat)) (m : emap) : Prop :=
  (∀ e l, em_map m !! e = Some l ↔ (e, l) ∈ s) ∧ (∀ e l, em_local m !! l = Some e ↔ (e, l) ∈ s).

Lemma erel_fun s m e l l' : erel s m → (e, l) ∈ s → (e, l') ∈ s → l = l'.
Proof. intros [H _] H1%H H2%H. congruence. Qed.
Lemma erel_inj s m e e' l : erel s m → (e, l) ∈ s → (e', l) ∈ s → e = e'.
Proof. intros [_ H] H1%H H2%H. congruence. Qed.

Lemma erel_remove s m e l :
  erel s m → (e, l) ∈ s →
  erel (s ∖ {[(e, l)]}) (EMap (delete e (em_map m)) (delete l (em_local m))).
Proof.
  intros HR Hin. pose proof HR as [H1 H2]. split; intros e' l'; simpl; rewrite elem_of_difference, elem_of_singleton.
  - destruct (decide (e = e')) as [->|Hne].
    + rewrite lookup_delete. split; [done|]. intros [Hs Hn]. destruct Hn. f_equal. by eapply erel_fun.
    + rewrite lookup_delete_ne, H1 by done. split; [|tauto]. intros ?. split; [done|]. congruence.
  - destruct (decide (l = l')) as [->|Hne].
    + rewrite lookup_delete. split; [done|]. intros [Hs Hn]. destruct Hn. f_equal. by eapply erel_inj.
    + rewrite lookup_delete_ne, H2 by done. split; [|tauto]. intros ?. split; [done|]. congruence.
Qed.

Lemma erel_eq s s' m : erel s m → (∀ q, q ∈ s' ↔ q ∈ s) → erel s' m.
Proof. intros [H1 H2] H. split; intros; rewrite H; auto. Qed.

Lemma erel_erase_if p : ∀ (l : list (nat * nat)) s s' m,
  NoDup l → erel s m → (∀ q, q ∈ l → q ∈ s) →
  (∀ q, q ∈ s' ↔ q ∈ s ∧ (q ∉ l ∨ p q.1 q.2 = false)) →
  erel s'
    (foldl (λ m el, if p el.1 el.2 then EMap (delete el.1 (em_map m)) (delete el.2 (em_local m)) else m) m l).
Proof.
  induction l as [|[e l0] l IH]; intros s s' m Hnd HR Hsub Hs'; simpl.
  - eapply erel_eq; [done|]. intros q. rewrite Hs'. set_solver.
  - apply NoDup_cons in Hnd as [Hni Hnd]. destruct (p e l0) eqn:Ep.
    + assert (Hin : (e, l0) ∈ s) by (apply Hsub; by left).
      apply (IH (s ∖ {[(e, l0)]})); [done|by apply erel_remove| |].
      * intros q Hq. apply elem_of_difference.
        split; [apply Hsub; by right|]. rewrite elem_of_singleton. intros ->. done.
      * intros q. rewrite Hs', elem_of_difference, elem_of_singleton, elem_of_cons.
        destruct (decide (q = (e, l0))) as [->|]; [|tauto]. simpl. rewrite Ep. intuition congruence.
    + apply (IH s); [done|done|intros q Hq; apply Hsub; by right|].
      intros q. rewrite Hs', elem_of_cons.
      destruct (decide (q = (e, l0))) as [->|]; [|tauto]. simpl. rewrite Ep. intuition congruence.
Qed.

Lemma estep_sim s m o s' : erel s m → espec s o = Some s' → ∃ m', estep m o = Ok m' ∧ erel s' m'.
Proof.
  intros HR. pose proof HR as [H1 H2]. destruct o as [e l|e|l|p| |]; simpl.
  - case_decide as Hf; [|done]. intros [= <-].
    assert (em_map m !! e = None) as E1.
    { destruct (em_map m !! e) as [l'|] eqn:E; [|done]. apply H1 in E. apply Hf in E. simpl in E. tauto. }
    assert (em_local m !! l = None) as E2.
    { destruct (em_local m !! l) as [e'|] eqn:E; [|done]. apply H2 in E. apply Hf in E. simpl in E. tauto. }
    unfold em_insert. rewrite !bool_decide_true by done. simpl. eexists. split; [done|].
    split; intros e' l'; simpl; rewrite elem_of_union, elem_of_singleton.
    + destruct (decide (e = e')) as [->|Hne].
      * rewrite lookup_insert. split; [intros [= ->]; by left|]. intros [[= ->]|Hs]; [done|].
        apply H1 in Hs. congruence.
      * rewrite lookup_insert_ne, H1 by done. split; [by right|]. intros [[= <- <-]|?]; done.
    + destruct (decide (l = l')) as [->|Hne].
      * rewrite lookup_insert. split; [intros [= ->]; by left|]. intros [[= ->]|Hs]; [done|].
        apply H2 in Hs. congruence.
      * rewrite lookup_insert_ne, H2 by done. split; [by right|]. intros [[= <- <-]|?]; done.
  - case_decide as Hf; [|done]. intros [= <-]. destruct Hf as ([e' l] & Hin & He). simpl in He. subst e'.
    pose proof (proj2 (H1 e l) Hin) as El. unfold em_erase. rewrite El. simpl. eexists. split; [done|].
    eapply erel_eq; [by apply (erel_remove s m e l)|]. intros [e' l']. rewrite elem_of_filter, elem_of_difference, elem_of_singleton. simpl. split.
    + intros [? ?]. split; [done|]. congruence.
    + intros [? Hn]. split; [|done]. intros ->. destruct Hn. f_equal. by eapply erel_fun.
  - case_decide as Hf; [|done]. intros [= <-]. destruct Hf as ([e l'] & Hin & He). simpl in He. subst l'.
    pose proof (proj2 (H2 e l) Hin) as El. unfold em_erase_local. rewrite El. simpl. eexists. split; [done|].
    eapply erel_eq; [by apply (erel_remove s m e l)|]. intros [e' l']. rewrite elem_of_filter, elem_of_difference, elem_of_singleton. simpl. split.
    + intros [? ?]. split; [done|]. congruence.
    + intros [? Hn]. split; [|done]. intros ->. destruct Hn. f_equal. by eapply erel_inj.
  - intros [= <-]. eexists. split; [done|]. unfold em_erase_if.
    apply (erel_erase_if p _ s); [apply NoDup_map_to_list|done| |].
    + intros [e l] He%elem_of_map_to_list. by apply H1.
    + intros [e l]. rewrite elem_of_filter, elem_of_map_to_list, H1. simpl. tauto.
  - intros [= <-]. eexists. split; [done|]. split; intros e l; simpl; rewrite elem_of_map.
    + rewrite H2. split; [intros ?; by exists (l, e)|]. intros ([x y] & [= -> ->] & ?). done.
    + rewrite H1. split; [intros ?; by exists (l, e)|]. intros ([x y] & [= -> ->] & ?). done.
  - intros [= <-]. eexists. split; [done|]. split; intros e l; simpl; rewrite lookup_empty; split; set_solver.
Qed.

Lemma erel_each s m : erel s m → em_each m ≡ₚ elements s.
Proof.
  intros [H1 _]. apply NoDup_Permutation; [apply NoDup_map_to_list|apply NoDup_elements|].
  intros [e l]. unfold em_each. rewrite elem_of_map_to_list, elem_of_elements. apply H1.
Qed.

Lemma em_main ops s :
  orun espec ∅ ops = Some s → ∃ m, rrun estep em_empty ops = Ok m ∧ erel s m.
Proof.
  intros H. eapply (rrun_refines espec estep erel); [apply estep_sim| |exact H].
  split; intros e l; simpl; rewrite lookup_empty; split; set_solver.
Qed.

(** ** contact_manifold_map *)
Definition mstep (s : mmap) (o : mop) : res mmap :=
  match o with
  | MCreate m a b => mm_create s m a b
  | MDestroy m => mm_destroy s m
  | MSwap m => mm_swap s m
  end.

Record mrel (s : gmap nat (nat * nat)) (c : mmap) : Prop := {
  mr_body : mm_body c = s;
  mr_pair : ∀ a b m, mm_pair c !! (a, b) = Some m ↔ s !! m = Some (a, b) ∨ s !! m = Some (b, a);
  mr_uniq : ∀ m m' p q, s !! m = Some p → s !! m' = Some q → same_pair p q → m = m' }.

Lemma mstep_sim s c o s' : mrel s c → mspec s o = Some s' → ∃ c', mstep c o = Ok c' ∧ mrel s' c'.
Proof.
  intros [Hb Hp Hu]. destruct o as [m a b|m|m]; simpl.
  - case_decide as Hd; [|done]. destruct Hd as [Hm Hall]. intros [= <-].
    assert (Hab : ∀ m', s !! m' ≠ Some (a, b)).
    { intros m' E. apply (Hall _ _ E). by left. }
    assert (Hba : ∀ m', s !! m' ≠ Some (b, a)).
    { intros m' E. apply (Hall _ _ E). by right. }
    unfold mm_create. rewrite (bool_decide_true (mm_body c !! m = None)) by (by rewrite Hb). simpl.
    assert (mm_pair c !! (a, b) = None) as E1.
    { destruct (mm_pair c !! (a, b)) as [m'|] eqn:E; [|done]. apply Hp in E. naive_solver. }
    assert (mm_pair c !! (b, a) = None) as E2.
    { destruct (mm_pair c !! (b, a)) as [m'|] eqn:E; [|done]. apply Hp in E. naive_solver. }
    rewrite !bool_decide_true by done. simpl. eexists. split; [done|]. split; simpl.
    + by rewrite Hb.
    + intros x y m'.
      destruct (decide ((b, a) = (x, y))) as [[= <- <-]|N1].
      { rewrite lookup_insert. split.
        - intros [= <-]. right. apply lookup_insert.
        - intros [E|E]; destruct (decide (m = m')) as [->|Hne]; try done; rewrite lookup_insert_ne in E by done.
          + by apply Hba in E. + by apply Hab in E. }
      rewrite lookup_insert_ne by done.
      destruct (decide ((a, b) = (x, y))) as [[= <- <-]|N2].
      { rewrite lookup_insert. split.
        - intros [= <-]. left. apply lookup_insert.
        - intros [E|E]; destruct (decide (m = m')) as [->|Hne]; try done; rewrite lookup_insert_ne in E by done.
          + by apply Hab in E. + by apply Hba in E. }
      rewrite lookup_insert_ne by done. rewrite Hp.
      destruct (decide (m = m')) as [->|Hne].
      * rewrite lookup_insert, Hm. split; [naive_solver|]. intros [[= -> ->]|[= -> ->]]; done.
      * by rewrite !lookup_insert_ne by done.
    + intros m1 m2 p q E1' E2' Hs.
      destruct (decide (m1 = m)) as [->|N1]; destruct (decide (m2 = m)) as [->|N2]; try done.
      * rewrite lookup_insert in E1'. rewrite lookup_insert_ne in E2' by done. simplify_eq.
        destruct (Hall _ _ E2'). destruct q as [x y]. unfold same_pair in *. simpl in *. naive_solver.
      * rewrite lookup_insert in E2'. rewrite lookup_insert_ne in E1' by done. simplify_eq.
        by destruct (Hall _ _ E1').
      * rewrite lookup_insert_ne in E1', E2' by done. by eapply Hu.
  - intros (p & Hm & [= <-])%bind_Some. destruct p as [a b]. unfold mm_destroy. rewrite Hb, Hm. simpl.
    eexists. split; [done|]. split; simpl.
    + done.
    + intros x y m'.
      assert (Hone : ∀ m', s !! m' = Some (a, b) ∨ s !! m' = Some (b, a) → m' = m).
      { intros m0 [E|E]; eapply Hu; try done; unfold same_pair; auto. }
      destruct (decide ((b, a) = (x, y))) as [[= <- <-]|N1].
      { rewrite lookup_delete. split; [done|]. rewrite !lookup_delete_Some. intros [[Hn E]|[Hn E]]; destruct Hn; symmetry; auto. }
      rewrite lookup_delete_ne by done.
      destruct (decide ((a, b) = (x, y))) as [[= <- <-]|N2].
      { rewrite lookup_delete. split; [done|]. rewrite !lookup_delete_Some. intros [[Hn E]|[Hn E]]; destruct Hn; symmetry; auto. }
      rewrite lookup_delete_ne by done. rewrite Hp, !lookup_delete_Some.
      destruct (decide (m = m')) as [->|Hne]; [|naive_solver]. rewrite Hm. naive_solver.
    + intros m1 m2 p q [_ E1]%lookup_delete_Some [_ E2]%lookup_delete_Some. by eapply Hu.
  - intros (p & Hm & Hs)%bind_Some. destruct p as [a b]. simplify_eq. unfold mm_swap. rewrite Hm. simpl.
    eexists. split; [done|]. split; simpl.
    + done.
    + intros x y m'. rewrite Hp. destruct (decide (m = m')) as [->|Hne].
      * rewrite lookup_insert, Hm. naive_solver.
      * by rewrite !lookup_insert_ne by done.
    + intros m1 m2 p q E1 E2 Hs.
      assert (∃ p', mm_body c !! m1 = Some p' ∧ (p' = p ∨ p' = (p.2, p.1))) as (p' & E1' & Hp').
      { destruct (decide (m = m1)) as [->|]; [rewrite lookup_insert in E1; simplify_eq; eauto|].
        rewrite lookup_insert_ne in E1 by done. eauto. }
      assert (∃ q', mm_body c !! m2 = Some q' ∧ (q' = q ∨ q' = (q.2, q.1))) as (q' & E2' & Hq').
      { destruct (decide (m = m2)) as [->|]; [rewrite lookup_insert in E2; simplify_eq; eauto|].
        rewrite lookup_insert_ne in E2 by done. eauto. }
      eapply Hu; [exact E1'|exact E2'|]. destruct p, q. unfold same_pair in *. simpl in *. naive_solver.
Qed.

Lemma mm_main ops s :
  orun mspec ∅ ops = Some s → ∃ c, rrun mstep mm_empty ops = Ok c ∧ mrel s c.
Proof.
  intros H. eapply (rrun_refines mspec mstep mrel); [apply mstep_sim| |exact H].
  split; simpl; [done| |].
  - intros. rewrite !lookup_empty. naive_solver.
  - intros ? ? ? ? E. by rewrite lookup_empty in E.
Qed.

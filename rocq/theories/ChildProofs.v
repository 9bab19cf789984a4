From Verif Require Import Outcome Chain MapProofs ChildModel ChildSpec.

Definition nx (l : gmap nat (option nat * option nat)) (i : nat) : option (option nat) := snd <$> l !! i.

Definition chstep (r : creg) (o : chop) : res creg :=
  match o with
  | ChAdd p c => add_child r p c
  | ChRemove p c => remove_child r p c
  | ChDetach c => Ok (detach r c)
  end.

Record chrel (nodes : gset nat) (s : chstate) (r : creg) : Prop := {
  hr_node : c_node r = nodes;
  hr_par : ∀ p, match ch_kids s !! p with
                | Some l => ∃ h, c_par r !! p = Some h ∧ chain (nx (c_list r)) h l
                | None => c_par r !! p = None
                end;
  hr_marked : ∀ c, c ∈ ch_marked s ↔ is_Some (c_list r !! c);
  hr_nodup : ∀ p l, ch_kids s !! p = Some l → NoDup l;
  hr_disj : ∀ p q l k x, ch_kids s !! p = Some l → ch_kids s !! q = Some k → x ∈ l → x ∈ k → p = q;
  hr_parent : ∀ p l x, ch_kids s !! p = Some l → x ∈ l → ∃ n, c_list r !! x = Some (Some p, n) }.

Lemma chain_size l h k : NoDup k → chain (nx l) h k → length k ≤ size l.
Proof.
  intros Hnd Hc. rewrite <- (size_list_to_set (C := gset nat) k) by done. rewrite <- size_dom.
  apply subseteq_size. intros x. rewrite elem_of_list_to_set. intros Hx.
  apply elem_of_dom. destruct (chain_lookup _ _ _ _ Hc Hx) as [n Hn]. unfold nx in Hn.
  destruct (l !! x); [eauto|done].
Qed.

Lemma child_walk_spec l : ∀ k fuel h, length k ≤ fuel → chain (nx l) h k → child_walk fuel l h = Ok k.
Proof.
  induction k as [|x k IH]; intros fuel h Hf; simpl.
  - intros ->. by destruct fuel.
  - intros (-> & n & Hn & Hc). destruct fuel as [|fuel]; simpl in *; [lia|].
    unfold nx in Hn. destruct (l !! x) as [e|]; [|done]. simpl in *. simplify_eq.
    rewrite (IH fuel) by (done || lia). done.
Qed.

Lemma filter_not_in (c : nat) (k : list nat) : c ∉ k → filter (λ x, x ≠ c) k = k.
Proof.
  induction k as [|x k IH]; [done|]. rewrite not_elem_of_cons, filter_cons. intros [? ?].
  rewrite decide_True by done. by rewrite IH.
Qed.

(** The loop relinks the predecessor of [c], or does nothing. *)
Lemma unlink_spec l c next : ∀ k fuel h,
  NoDup k → length k ≤ fuel → chain (nx l) h k → h ≠ Some c →
  (c ∈ k → nx l c = Some next) →
  ∃ l', unlink_loop fuel l c next h = Ok l' ∧
    (∀ x, fst <$> l' !! x = fst <$> l !! x) ∧
    (∀ x, x ∉ k → l' !! x = l !! x) ∧
    (c ∉ k → l' = l) ∧
    chain (nx l') h (filter (λ x, x ≠ c) k).
Proof.
  induction k as [|x k IH]; intros fuel h Hnd Hf; simpl.
  - intros -> _ _. exists l. destruct fuel; done.
  - intros (-> & n & Hn & Hc) Hh Hnext. apply NoDup_cons in Hnd as [Hx Hnd].
    destruct fuel as [|fuel]; simpl in *; [lia|].
    assert (Hxc : x ≠ c) by congruence.
    pose proof Hn as Hn'. unfold nx in Hn'. destruct (l !! x) as [e|] eqn:Ex; [|done]. simpl in *.
    apply (inj Some) in Hn'. rewrite filter_cons_True by done.
    destruct (decide (e.2 = Some c)) as [Heq|Hne].
    + assert (n = Some c) as -> by congruence. destruct k as [|c' k]; simpl in Hc; [done|]. destruct Hc as ([= <-] & n & Hn2 & Hc).
      apply NoDup_cons in Hnd as [Hck Hnd].
      assert (n = next) as ->.
      { specialize (Hnext ltac:(set_solver)). congruence. }
      exists (<[x := (e.1, next)]> l). split_and!.
      * done.
      * intros y. destruct (decide (x = y)) as [<-|]; [by rewrite lookup_insert, Ex|by rewrite lookup_insert_ne].
      * intros y Hy. rewrite lookup_insert_ne; [done|]. set_solver.
      * intros Hno. destruct Hno. set_solver.
      * rewrite filter_cons_False by tauto. rewrite filter_not_in by done.
        split; [done|]. exists next. unfold nx. rewrite lookup_insert. split; [done|].
        eapply chain_ext; [|exact Hc]. intros y Hy. unfold nx. rewrite lookup_insert_ne; [done|]. set_solver.
    + rewrite Hn' in Hne. destruct (IH fuel n) as (l' & H1 & H2 & H3 & H4 & H5); try done; [lia|set_solver|].
      rewrite Hn'. exists l'. split_and!; try done.
      * intros y Hy. apply H3. set_solver.
      * intros Hy. apply H4. set_solver.
      * split; [done|]. exists n. split; [|done]. unfold nx. rewrite H3 by done. rewrite Ex. simpl. by rewrite Hn'.
Qed.

Lemma chstep_sim nodes s r o s' :
  chrel nodes s r → chspec nodes s o = Some s' → ∃ r', chstep r o = Ok r' ∧ chrel nodes s' r'.
Proof.
  intros HR. pose proof HR as [Hnode Hpar Hmk Hnd Hdj Hpp]. destruct o as [p c|p c|c]; simpl.
  - case_decide as Hd; [|done]. destruct Hd as [Hp Hc]. intros [= <-]. unfold add_child.
    rewrite Hnode, (bool_decide_true (p ∈ nodes)) by done. cbn [assert_ mbind res_bind].
    assert (Hcn : c_list r !! c = None).
    { destruct (c_list r !! c) eqn:E; [|done]. destruct Hc. apply Hmk. eauto. }
    rewrite bool_decide_true by done. cbn [require_ mbind res_bind].
    eexists. split; [done|].
    assert (Hnot : ∀ q l, ch_kids s !! q = Some l → c ∉ l).
    { intros q l Hq Hin. destruct (Hpp _ _ _ Hq Hin) as [n Hn]. congruence. }
    assert (Hnotk : c ∉ kids s p).
    { unfold kids. destruct (ch_kids s !! p) eqn:E; simpl; [by eapply Hnot|set_solver]. }
    split; simpl.
    + done.
    + intros q. destruct (decide (p = q)) as [<-|Hne].
      * rewrite lookup_insert. exists (Some c). rewrite lookup_insert. split; [done|]. split; [done|].
        exists (default None (c_par r !! p)). unfold nx. rewrite lookup_insert. split; [done|].
        pose proof (Hpar p) as Hq. unfold kids in *. destruct (ch_kids s !! p) as [l|] eqn:E; simpl in *.
        -- destruct Hq as (h & -> & Hch). simpl. eapply chain_ext; [|exact Hch].
           intros i Hi. unfold nx. rewrite lookup_insert_ne; [done|]. set_solver.
        -- by rewrite Hq.
      * rewrite !lookup_insert_ne by done. pose proof (Hpar q) as Hq. destruct (ch_kids s !! q) as [l|] eqn:E; [|done].
        destruct Hq as (h & -> & Hch). exists h. split; [done|]. eapply chain_ext; [|exact Hch].
        intros i Hi. unfold nx. rewrite lookup_insert_ne; [done|]. intros ->. by apply (Hnot q l).
    + intros x. rewrite elem_of_union, elem_of_singleton, Hmk. destruct (decide (c = x)) as [<-|].
      * rewrite lookup_insert. split; eauto.
      * rewrite lookup_insert_ne by done. split; [intros [->|?]; done|tauto].
    + intros q l. destruct (decide (p = q)) as [<-|Hne].
      * rewrite lookup_insert. intros [= <-]. apply NoDup_cons. split; [done|]. unfold kids.
        destruct (ch_kids s !! p) eqn:E; simpl; [by eapply Hnd|constructor].
      * rewrite lookup_insert_ne by done. apply Hnd.
    + intros q1 q2 l k x H1 H2 Hx1 Hx2.
      assert (Hin : ∀ q l, <[p := c :: kids s p]> (ch_kids s) !! q = Some l → x ∈ l →
        (x = c ∧ q = p) ∨ ∃ l', ch_kids s !! q = Some l' ∧ x ∈ l').
      { intros q l' Hq Hxl. destruct (decide (p = q)) as [<-|Hne].
        - rewrite lookup_insert in Hq. simplify_eq. apply elem_of_cons in Hxl as [->|Hxl]; [by left|].
          right. unfold kids in Hxl. destruct (ch_kids s !! p); simpl in *; [eauto|set_solver].
        - rewrite lookup_insert_ne in Hq by done. eauto. }
      destruct (Hin _ _ H1 Hx1) as [[-> ->]|(l1 & E1 & F1)]; destruct (Hin _ _ H2 Hx2) as [[? ->]|(l2 & E2 & F2)]; try done.
      * by destruct (Hnot _ _ E2).
      * subst. by destruct (Hnot _ _ E1).
      * by eapply Hdj.
    + intros q l x H1 Hx. destruct (decide (p = q)) as [<-|Hne].
      * rewrite lookup_insert in H1. simplify_eq. apply elem_of_cons in Hx as [->|Hx]; [rewrite lookup_insert; eauto|].
        unfold kids in Hx. destruct (ch_kids s !! p) as [l|] eqn:E; simpl in *; [|set_solver].
        rewrite lookup_insert_ne by set_solver. by eapply Hpp.
      * rewrite lookup_insert_ne in H1 by done. rewrite lookup_insert_ne; [by eapply Hpp|]. intros ->. by apply (Hnot q l).
  - case_decide as Hd; [|done]. destruct Hd as [[l Hl] Hc]. intros [= <-]. unfold remove_child.
    pose proof (Hpar p) as Hp. rewrite Hl in Hp. destruct Hp as (h & Hh & Hch). rewrite Hh. cbn [opt_res mbind res_bind].
    apply Hmk in Hc as [e He]. rewrite He. cbn [opt_res mbind res_bind].
    unfold kids. rewrite Hl. simpl.
    assert (Hgen : ∀ l0 h0, (∀ x, fst <$> l0 !! x = fst <$> c_list r !! x) →
       (∀ x, x ∉ l → l0 !! x = c_list r !! x) → chain (nx l0) h0 (filter (λ x, x ≠ c) l) →
       chrel nodes (ChS (<[p:=filter (λ x, x ≠ c) l]> (ch_kids s)) (ch_marked s))
         (CReg (c_node r) (<[p := h0]> (c_par r)) l0)).
    { intros l0 h0 F1 F2 F3. split; simpl.
      - done.
      - intros q. destruct (decide (p = q)) as [<-|Hne]; [rewrite !lookup_insert; eauto|].
        rewrite !lookup_insert_ne by done. pose proof (Hpar q) as Hq. destruct (ch_kids s !! q) as [k|] eqn:E; [|done].
        destruct Hq as (hq & -> & Hcq). exists hq. split; [done|]. eapply chain_ext; [|exact Hcq].
        intros i Hi. unfold nx. rewrite F2; [done|]. intros Hil. apply Hne. by eapply Hdj.
      - intros x. rewrite Hmk. specialize (F1 x). destruct (l0 !! x), (c_list r !! x); simpl in F1; try done; split; eauto.
      - intros q k. destruct (decide (p = q)) as [<-|Hne].
        + rewrite lookup_insert. intros [= <-]. apply NoDup_filter. by eapply Hnd.
        + rewrite lookup_insert_ne by done. apply Hnd.
      - assert (Hin : ∀ x q l', <[p:=filter (λ x, x ≠ c) l]> (ch_kids s) !! q = Some l' → x ∈ l' →
          ∃ k, ch_kids s !! q = Some k ∧ x ∈ k).
        { intros x q l'. destruct (decide (p = q)) as [<-|Hne].
          - rewrite lookup_insert. intros [= <-] [_ Hx]%elem_of_list_filter. eauto.
          - rewrite lookup_insert_ne by done. eauto. }
        intros q1 q2 l1 l2 x H1 H2 X1 X2. destruct (Hin _ _ _ H1 X1) as (? & ? & ?).
        destruct (Hin _ _ _ H2 X2) as (? & ? & ?). by eapply Hdj.
      - intros q k x H1 Hx.
        assert (∃ k', ch_kids s !! q = Some k' ∧ x ∈ k') as (k' & E & Hx').
        { destruct (decide (p = q)) as [<-|Hne].
          - rewrite lookup_insert in H1. simplify_eq. apply elem_of_list_filter in Hx as [_ ?]. eauto.
          - rewrite lookup_insert_ne in H1 by done. eauto. }
        destruct (Hpp _ _ _ E Hx') as [n Hn]. specialize (F1 x). rewrite Hn in F1.
        destruct (l0 !! x) as [[a b]|]; simpl in F1; [|done]. simplify_eq. eauto. }
    destruct (decide (h = Some c)) as [->|Hhc].
    + eexists. split; [done|]. apply Hgen; [done|done|].
      destruct l as [|c' l]; simpl in Hch; [done|]. destruct Hch as ([= <-] & n & Hn & Hch).
      pose proof (Hnd _ _ Hl) as [Hcl _]%NoDup_cons. rewrite filter_cons_False by tauto.
      rewrite filter_not_in by done. unfold nx in Hn. rewrite He in Hn. simpl in Hn. by simplify_eq.
    + destruct (unlink_spec (c_list r) c e.2 l (size (c_list r)) h) as (l' & -> & F1 & F2 & F4 & F3); try done.
      * by eapply Hnd.
      * eapply chain_size; [by eapply Hnd|done].
      * intros _. unfold nx. by rewrite He.
      * cbn [mbind res_bind]. eexists. split; [done|].
        replace (c_par r) with (<[p := h]> (c_par r)); [by apply Hgen|]. by apply insert_id.
  - case_decide as Hd; [|done]. intros [= <-]. eexists. split; [done|]. split; simpl.
    + done.
    + intros q. pose proof (Hpar q) as Hq. destruct (ch_kids s !! q) as [l|] eqn:E; [|done].
      destruct Hq as (h & Hh & Hch). exists h. split; [done|]. eapply chain_ext; [|exact Hch].
      intros i Hi. unfold nx. rewrite lookup_delete_ne; [done|]. intros ->. by apply (Hd _ _ E).
    + intros x. rewrite elem_of_difference, elem_of_singleton, Hmk. destruct (decide (c = x)) as [<-|].
      * rewrite lookup_delete. split; [tauto|]. by intros [].
      * rewrite lookup_delete_ne by done. split; [tauto|]. intros ?. split; [done|congruence].
    + done.
    + done.
    + intros q l x E Hx. destruct (Hpp _ _ _ E Hx) as [n Hn]. exists n. rewrite lookup_delete_ne; [done|].
      intros ->. by apply (Hd _ _ E).
Qed.

Lemma child_main nodes ops s :
  orun (chspec nodes) (ChS ∅ ∅) ops = Some s →
  ∃ r, rrun chstep (CReg nodes ∅ ∅) ops = Ok r ∧ chrel nodes s r.
Proof.
  intros H. eapply (rrun_refines (chspec nodes) chstep (chrel nodes)); [apply chstep_sim| |exact H].
  split; simpl; try done.
  intros c. rewrite lookup_empty. split; [set_solver|]. by intros [].
Qed.

Lemma children_spec nodes s r p : chrel nodes s r → children r p = Ok (kids s p) ∧ NoDup (kids s p).
Proof.
  intros [Hnode Hpar Hmk Hnd Hdj Hpp]. unfold children, kids. pose proof (Hpar p) as Hp.
  destruct (ch_kids s !! p) as [l|] eqn:E; simpl.
  - destruct Hp as (h & -> & Hch). split; [|by eapply Hnd]. apply child_walk_spec; [|done].
    eapply chain_size; [by eapply Hnd|done].
  - rewrite Hp. split; [done|constructor].
Qed.

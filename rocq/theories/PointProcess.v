(** Proofs about process_collision, for the sequential and the parallel form. *)
From Verif Require Import Outcome BoxModel PointModel PointProofs PointSlot.

Section process.
Context {V Sc X : Type} (G : geo V Sc).
Notation preg := (preg V X).
Notation rpoint := (rpoint V X).
Notation entry := (nat * (rpoint * nat))%type.
Notation astate := (gmap nat (list entry)).
Notation pst := (@pst V X).
Notation slot := (@slot V X).

Definition news_entries (f0 : nat) (news : list rpoint) : list entry :=
  reverse (imap (λ i p, (f0 + i, (p, 0))) news).
Lemma news_entries_snoc f0 news p : news_entries f0 (news ++ [p]) = (f0 + length news, (p, 0)) :: news_entries f0 news.
Proof. unfold news_entries. rewrite imap_app. simpl. rewrite reverse_snoc. by rewrite Nat.add_0_r. Qed.
Lemma news_entries_ids f0 news x : x ∈ (news_entries f0 news).*1 → f0 ≤ x < f0 + length news.
Proof.
  induction news as [|p news IH] using rev_ind; [by intros ?%elem_of_nil|].
  rewrite news_entries_snoc, app_length. simpl. rewrite elem_of_cons. intros [->|H]; [lia|]. apply IH in H. lia.
Qed.
Lemma news_entries_length f0 news : length (news_entries f0 news) = length news.
Proof. unfold news_entries. by rewrite reverse_length, imap_length. Qed.

Definition view (par : bool) (l : list entry) (f0 : nat) (news : list rpoint) (dels : list nat) : list entry :=
  if par then l else news_entries f0 news ++ del_ids dels l.
Definition vfresh (par : bool) (f0 : nat) (news : list rpoint) : nat := if par then f0 else f0 + length news.

(** State in the middle of process_collision: [l] are the points of the
    manifold, with those in the deletion record still in; in sequential mode
    the registry has the recorded deletions and creations already applied. *)
Record prel (par : bool) (m : nat) (A : astate) (f0 : nat) (l : list entry) (s : pst) : Prop := {
  pl_repr : repr (<[m := view par l f0 (ps_new s) (ps_del s)]> A) (vfresh par f0 (ps_new s)) (ps_reg s);
  pl_nodup : NoDup l.*1;
  pl_old : ∀ x, x ∈ l.*1 → x < f0;
  pl_dels : ∀ x, x ∈ ps_del s → x ∈ l.*1;
  pl_dnodup : NoDup (ps_del s)
}.

Lemma view_upd par l f0 news dels x d :
  x < f0 → x ∉ dels → view par (upd_id x d l) f0 news dels = upd_id x d (view par l f0 news dels).
Proof.
  intros Hx Hd. unfold view. destruct par; [done|]. rewrite upd_id_app, del_ids_upd by done. f_equal.
  rewrite upd_id_notin; [done|]. intros H%news_entries_ids. lia.
Qed.
Lemma view_in par l f0 news dels x d : (x, d) ∈ l → x ∉ dels → (x, d) ∈ view par l f0 news dels.
Proof.
  intros Hx Hd. unfold view. destruct par; [done|]. apply elem_of_app. right. clear news.
  revert l Hx. induction dels as [|y dels IH]; intros l Hx; simpl; [done|].
  apply not_elem_of_cons in Hd as [? ?]. apply IH; [done|]. unfold del_id. apply elem_of_list_filter. done.
Qed.

Lemma pl_read par m A f0 l s x d :
  prel par m A f0 l s → (x, d) ∈ l → x ∉ ps_del s → ∃ nx, pr_cp (ps_reg s) !! x = Some (CP m nx d.1 d.2).
Proof.
  intros HP Hx Hd. pose proof (view_in par l f0 (ps_new s) (ps_del s) x d Hx Hd) as Hv.
  apply elem_of_list_lookup in Hv as (i & Hi). eexists.
  eapply (rp_get _ _ _ (pl_repr _ _ _ _ _ _ HP)); [by rewrite lookup_insert|exact Hi].
Qed.
Lemma pl_set par m A f0 l s x d0 d nx :
  prel par m A f0 l s → (x, d0) ∈ l → x ∉ ps_del s → pr_cp (ps_reg s) !! x = Some (CP m nx d0.1 d0.2) →
  prel par m A f0 (upd_id x d l) (set_cp s x (CP m nx d.1 d.2)).
Proof.
  intros HP Hx Hd Hc. assert (Hxl : x ∈ l.*1) by (apply elem_of_list_fmap; by exists (x, d0)).
  constructor; simpl.
  - rewrite view_upd by (try done; by apply (pl_old _ _ _ _ _ _ HP)).
    pose proof (repr_set (<[m:=view par l f0 (ps_new s) (ps_del s)]> A) _ _ m (view par l f0 (ps_new s) (ps_del s)) x d0 d nx
      (pl_repr _ _ _ _ _ _ HP)) as H. rewrite lookup_insert in H.
    specialize (H eq_refl Hc). rewrite insert_insert in H. apply H.
    apply elem_of_list_fmap. exists (x, d0). split; [done|]. by apply view_in.
  - rewrite upd_id_ids. apply HP.
  - intros y. rewrite upd_id_ids. apply HP.
  - intros y Hy. rewrite upd_id_ids. by apply (pl_dels _ _ _ _ _ _ HP).
  - apply HP.
Qed.
Lemma pl_del par m A f0 l s x :
  prel par m A f0 l s → x ∈ l.*1 → x ∉ ps_del s →
  ∃ s', del_f par s x = Ok s' ∧ prel par m A f0 l s' ∧ ps_new s' = ps_new s ∧ ps_del s' = ps_del s ++ [x].
Proof.
  intros HP Hx Hd.
  assert (Hv : x ∈ (view par l f0 (ps_new s) (ps_del s)).*1).
  { apply elem_of_list_fmap in Hx as ([y d] & -> & Hx). apply elem_of_list_fmap. exists (y, d). split; [done|]. by apply view_in. }
  assert (Hnd : NoDup (ps_del s ++ [x])).
  { apply NoDup_app. split_and!; [apply HP| |apply NoDup_singleton]. intros y Hy Hy2. apply elem_of_list_singleton in Hy2 as ->. done. }
  assert (Hin : ∀ y, y ∈ ps_del s ++ [x] → y ∈ l.*1).
  { intros y [Hy|Hy]%elem_of_app; [by apply (pl_dels _ _ _ _ _ _ HP)|]. by apply elem_of_list_singleton in Hy as ->. }
  unfold del_f. destruct par.
  - eexists. split; [reflexivity|]. split; [|done]. constructor; simpl; try apply HP; done.
  - destruct (repr_destroy (<[m:=view false l f0 (ps_new s) (ps_del s)]> A) _ _ m (view false l f0 (ps_new s) (ps_del s)) x (pl_repr _ _ _ _ _ _ HP)) as (r' & -> & HR);
      [by rewrite lookup_insert|done|].
    simpl. eexists. split; [reflexivity|]. split; [|done]. constructor; simpl; try apply HP; try done.
    rewrite insert_insert in HR. rewrite del_ids_snoc. cbn [view] in HR. rewrite del_id_app in HR.
    rewrite (del_id_notin x (news_entries _ _)) in HR; [exact HR|].
    intros H%news_entries_ids. pose proof (pl_old _ _ _ _ _ _ HP _ Hx). lia.
Qed.
Lemma pl_new (nz : rpoint → bool) par m A f0 l s p :
  prel par m A f0 l s → length (ps_new s) + length (del_ids (ps_del s) l) < max_contacts → nz p = true →
  ∃ s', new_f nz par m s p = Ok s' ∧ prel par m A f0 l s' ∧ ps_new s' = ps_new s ++ [p] ∧ ps_del s' = ps_del s.
Proof.
  intros HP Hlen Hp. unfold new_f. destruct par.
  - rewrite bool_decide_true by lia. simpl. eexists. split; [reflexivity|]. split; [|done]. constructor; simpl; apply HP.
  - destruct (repr_create nz (<[m:=view false l f0 (ps_new s) (ps_del s)]> A) _ _ m (view false l f0 (ps_new s) (ps_del s)) p (pl_repr _ _ _ _ _ _ HP)) as (r' & -> & HR);
      [by rewrite lookup_insert|simpl; rewrite app_length, news_entries_length; lia|done|].
    simpl. eexists. split; [reflexivity|]. split; [|done]. constructor; simpl; try apply HP.
    rewrite insert_insert in HR. rewrite news_entries_snoc, app_length. simpl.
    replace (f0 + (length (ps_new s) + 1)) with (S (f0 + length (ps_new s))) by lia. exact HR.
Qed.

(** ** First loop *)
Fixpoint a_walk (env : penv V Sc X) (result : list rpoint) (todo : list entry) (merged : list bool)
  : list entry * list bool * list nat :=
  match todo with
  | [] => ([], merged, [])
  | (x, (p, k)) :: todo =>
    let n := nearest G env p result in
    if decide (n < length result ∧ merged !! n = Some false) then
      let '(l, mg, rm) := a_walk env result todo (<[n := true]> merged) in
      ((x, (default p (result !! n), S k)) :: l, mg, rm)
    else
      let '(l, mg, rm) := a_walk env result todo merged in
      ((x, (p, S k)) :: l, mg, if e_sep env p then x :: rm else rm)
  end.
Lemma a_walk_ids env result todo : ∀ merged, (a_walk env result todo merged).1.1.*1 = todo.*1.
Proof.
  induction todo as [|[x [p k]] todo IH]; intros merged; simpl; [done|]. case_decide.
  - specialize (IH (<[nearest G env p result:=true]> merged)). destruct (a_walk _ _ _ _) as [[l mg] rm]. simpl in *. by f_equal.
  - specialize (IH merged). destruct (a_walk _ _ _ _) as [[l mg] rm]. simpl in *. by f_equal.
Qed.
Lemma a_walk_merged env result todo : ∀ merged, length (a_walk env result todo merged).1.2 = length merged.
Proof.
  induction todo as [|[x [p k]] todo IH]; intros merged; simpl; [done|]. case_decide.
  - specialize (IH (<[nearest G env p result:=true]> merged)). destruct (a_walk _ _ _ _) as [[l mg] rm]. simpl in *. by rewrite insert_length in IH.
  - specialize (IH merged). destruct (a_walk _ _ _ _) as [[l mg] rm]. simpl in *. done.
Qed.

Lemma view_split par pre todo f0 dels :
  (∀ x, x ∈ dels → x ∉ todo.*1) →
  ∃ pre', view par (pre ++ todo) f0 [] dels = pre' ++ todo.
Proof.
  intros H. unfold view. destruct par; [eauto|]. exists (del_ids dels pre). unfold news_entries. simpl.
  rewrite del_ids_app. f_equal. by apply del_ids_notin.
Qed.

Definition nextf (w : wst) (e : nat) : res (option nat) := c ← opt_res (pr_cp (ps_reg (w_st w)) !! e); Ok (cp_next (V:=V) (X:=X) c).

Lemma walk_spec par env m A f0 result todo : ∀ pre s merged fuel l mg rm,
  prel par m A f0 (pre ++ todo) s → ps_new s = [] →
  (∀ x, x ∈ ps_del s → x ∉ todo.*1) →
  length merged = max_contacts → length result ≤ max_contacts → length todo ≤ fuel →
  a_walk env result todo merged = (l, mg, rm) →
  ∃ s', for_each fuel nextf (visit G par env result)
      (WSt s merged (length (del_ids (ps_del s) (pre ++ todo))) (ps_del s)) (fst <$> head todo)
      = Ok (WSt s' mg (length (del_ids (ps_del s ++ rm) (pre ++ l))) (ps_del s ++ rm)) ∧
    prel par m A f0 (pre ++ l) s' ∧ ps_new s' = [] ∧ ps_del s' = ps_del s ++ rm.
Proof.
  induction todo as [|[x [p k]] todo IH]; intros pre s merged fuel l mg rm HP Hnew Hdel Hmg Hres Hfuel Hwalk.
  - simpl in Hwalk. injection Hwalk as <- <- <-. rewrite !app_nil_r in *. exists s. destruct fuel; done.
  - destruct fuel as [|fuel]; [simpl in Hfuel; lia|]. simpl in Hfuel.
    assert (Hxl : (x, (p, k)) ∈ pre ++ (x, (p, k)) :: todo) by (apply elem_of_app; right; by left).
    assert (Hxd : x ∉ ps_del s) by (intros H; apply (Hdel x H); by left).
    assert (Hnd := pl_nodup _ _ _ _ _ _ HP). rewrite fmap_app in Hnd. simpl in Hnd.
    assert (Hxpre : x ∉ pre.*1).
    { apply NoDup_app in Hnd as (_ & H & _). intros Hx. apply (H x Hx). by left. }
    assert (Hxtodo : x ∉ todo.*1).
    { apply NoDup_app in Hnd as (_ & _ & [H _]%NoDup_cons). done. }
    assert (Hdel' : ∀ y, y ∈ ps_del s → y ∉ todo.*1).
    { intros y Hy Hy2. apply (Hdel y Hy). by right. }
    (* reading the entry and its successor *)
    assert (Hget : pr_cp (ps_reg s) !! x = Some (CP m (fst <$> head todo) p k)).
    { destruct (view_split par pre ((x, (p, k)) :: todo) f0 (ps_del s) Hdel) as (pre' & Hv).
      pose proof (pl_repr _ _ _ _ _ _ HP) as HR. rewrite Hnew, Hv in HR.
      rewrite (rp_get _ _ _ HR m (pre' ++ (x, (p, k)) :: todo) (length pre') x (p, k)); [|by rewrite lookup_insert|by rewrite lookup_app_r, Nat.sub_diag].
      simpl. rewrite lookup_app_r by lia. replace (S (length pre') - length pre') with 1 by lia. simpl. by destruct todo. }
    assert (Hupd : ∀ d0 d, upd_id x d (pre ++ (x, d0) :: todo) = pre ++ (x, d) :: todo).
    { intros d0 d. rewrite upd_id_app. rewrite upd_id_notin by done. f_equal. simpl. rewrite decide_True by done. f_equal. by apply upd_id_notin. }
    assert (Hass : ∀ (a : entry) b, pre ++ a :: b = (pre ++ [a]) ++ b) by (intros; by rewrite <- (assoc_L (++))).
    assert (Hxi : ∀ d, x ∈ (pre ++ (x, d) :: todo).*1).
    { intros d. rewrite fmap_app. simpl. apply elem_of_app. right. by left. }
    assert (Hlen : ∀ d, length (del_ids (ps_del s) (pre ++ (x, d) :: todo)) = length (del_ids (ps_del s) (pre ++ (x, (p, k)) :: todo))).
    { intros d. rewrite <- (Hupd (p, k) d), del_ids_upd, upd_id_length by done. done. }
    assert (HP1 := pl_set par m A f0 _ s x (p, k) (p, S k) _ HP Hxl Hxd Hget). rewrite Hupd in HP1. cbn [fst snd] in HP1.
    set (N := length (del_ids (ps_del s) (pre ++ (x, (p, k)) :: todo))) in *.
    set (s1 := set_cp s x (CP m (fst <$> head todo) p (S k))) in *.
    set (n := nearest G env p result).
    assert (Hstep : for_each (S fuel) nextf (visit G par env result) (WSt s merged N (ps_del s)) (Some x) =
      (a' ← visit G par env result (WSt s merged N (ps_del s)) x; for_each fuel nextf (visit G par env result) a' (fst <$> head todo))).
    { cbn [for_each]. assert (E : nextf (WSt s merged N (ps_del s)) x = Ok (fst <$> head todo)) by (unfold nextf; cbn [w_st]; by rewrite Hget).
      rewrite E. done. }
    change (fst <$> head ((x, (p, k)) :: todo)) with (Some x). rewrite Hstep. clear Hstep.
    assert (Hvis : visit G par env result (WSt s merged N (ps_del s)) x =
      (if decide (n < length result ∧ merged !! n = Some false) then
         q ← opt_res (result !! n); s' ← merge s1 x q; Ok (WSt s' (<[n := true]> merged) N (ps_del s))
       else if e_sep env p then
         _ ← assert_ (bool_decide (0 < N)); s' ← del_f par s1 x; Ok (WSt s' merged (N - 1) (ps_del s ++ [x]))
       else Ok (WSt s1 merged N (ps_del s)))).
    { unfold visit. cbn [w_st w_merged w_num w_removed]. rewrite Hget. cbn [opt_res mbind res_bind cp_parent cp_next cp_pt cp_life]. fold n s1.
      destruct (decide (n < length result)) as [Hn|Hn].
      - destruct (lookup_lt_is_Some_2 merged n) as [b Hb]; [lia|]. rewrite Hb. cbn [opt_res mbind res_bind].
        destruct b; simpl; [rewrite decide_False by (intros [_ ?]; done)|rewrite decide_True by done]; done.
      - cbn [mbind res_bind]. rewrite decide_False by tauto. done. }
    rewrite Hvis. clear Hvis. cbn [a_walk] in Hwalk. fold n in Hwalk.
    destruct (decide (n < length result ∧ merged !! n = Some false)) as [Hm|Hm].
    + destruct (lookup_lt_is_Some_2 result n) as [q Hq]; [tauto|]. rewrite Hq in *. cbn [default] in Hwalk. cbn [opt_res mbind res_bind].
      destruct (a_walk env result todo (<[n:=true]> merged)) as [[l0 mg0] rm0] eqn:Ew. injection Hwalk as <- <- <-.
      assert (Hg1 : pr_cp (ps_reg s1) !! x = Some (CP m (fst <$> head todo) p (S k))) by (apply lookup_insert).
      unfold merge. rewrite Hg1. cbn [opt_res mbind res_bind cp_parent cp_next cp_pt cp_life].
      assert (HP2 := pl_set par m A f0 _ _ x (p, S k) (q, S k) (fst <$> head todo) HP1).
      specialize (HP2 ltac:(apply elem_of_app; right; by left) Hxd Hg1). rewrite Hupd in HP2. cbn [fst snd] in HP2.
      rewrite Hass in HP2.
      destruct (IH _ _ (<[n := true]> merged) fuel l0 mg0 rm0 HP2) as (s' & Hfe & HPe & Hn' & Hd');
        [done|done|by rewrite insert_length|done|lia|done|].
      exists s'. cbn [ps_del set_cp s1] in *. rewrite <- !Hass in *. rewrite Hlen in Hfe. done.
    + destruct (a_walk env result todo merged) as [[l0 mg0] rm0] eqn:Ew. injection Hwalk as <- <- <-.
      destruct (e_sep env p) eqn:Esep.
      * destruct (pl_del par m A f0 _ _ x HP1) as (s2 & Hdf & HP2 & Hn2 & Hd2); [apply Hxi|done|].
        cbn [ps_del ps_new set_cp s1] in Hn2, Hd2.
        assert (Hcnt : S (length (del_id x (del_ids (ps_del s) (pre ++ (x, (p, S k)) :: todo)))) = N).
        { rewrite <- (Hlen (p, S k)). apply del_id_length.
          - apply del_ids_NoDup. rewrite fmap_app. simpl. done.
          - apply del_ids_ids. split; [|done]. apply Hxi. }
        rewrite bool_decide_true by lia.
        cbn [assert_ mbind res_bind]. rewrite Hdf. cbn [mbind res_bind].
        rewrite Hass in HP2.
        destruct (IH _ s2 merged fuel l0 mg0 rm0 HP2) as (s' & Hfe & HPe & Hn' & Hd'); [congruence| |done|done|lia|done|].
        { intros y Hy Hy2. rewrite Hd2 in Hy. apply elem_of_app in Hy as [Hy|Hy]; [by apply (Hdel' y Hy)|]. apply elem_of_list_singleton in Hy as ->. done. }
        exists s'. rewrite <- !Hass in *. rewrite Hd2 in *. rewrite del_ids_snoc in Hfe.
        assert (Hap : (ps_del s ++ [x]) ++ rm0 = ps_del s ++ x :: rm0) by (by rewrite <- (assoc_L (++))).
        rewrite Hap in *. replace (N - 1) with (length (del_id x (del_ids (ps_del s) (pre ++ (x, (p, S k)) :: todo)))) by lia. done.
      * cbn [mbind res_bind]. rewrite Hass in HP1.
        destruct (IH _ _ merged fuel l0 mg0 rm0 HP1) as (s' & Hfe & HPe & Hn' & Hd'); [done|done|done|done|lia|done|].
        exists s'. cbn [ps_del set_cp s1] in *. rewrite <- !Hass in *. rewrite Hlen in Hfe. done.
Qed.
End process.

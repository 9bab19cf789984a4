(** Proofs for C42. *)
From Verif Require Import Outcome AskModel AskSpec.
Open Scope Z_scope.

(** ** The ray service *)
Lemma frac_lt_spec a b : frac_lt a b = true ↔ ∃ x, a = Some x ∧ ∀ y, b = Some y → x < y.
Proof.
  destruct a as [x|], b as [y|]; cbn; rewrite ?bool_decide_eq_true; split; intros H; try done.
  - exists x. split; [done|]. by intros ? [= <-].
  - destruct H as (? & [= <-] & H). by apply H.
  - exists x. split; [done|]. by intros ? [=].
  - naive_solver.
  - naive_solver.
Qed.

(** Results after the contexts of [es] for one ray. *)
Definition best (frac : nat → option Z) (r : option nat * option Z) (es : list nat) : option nat * option Z :=
  foldl (λ r e, if frac_lt (frac e) r.2 then (Some e, frac e) else r) r es.

Lemma best_ok frac es es0 r :
  nearest frac es0 r.1 r.2 → nearest frac (es0 ++ es) (best frac r es).1 (best frac r es).2.
Proof.
  revert es0 r. induction es as [|e es IH]; intros es0 r H; cbn [best foldl]; [by rewrite app_nil_r|].
  rewrite cons_middle, app_assoc. apply IH. destruct (frac_lt _ _) eqn:L.
  - apply frac_lt_spec in L as (x & E & Hl). cbn. rewrite E. cbn. split; [set_solver|]. split; [done|].
    intros e' f' [Hi| ->%elem_of_list_singleton]%elem_of_app E'; [|rewrite E in E'; injection E'; lia].
    destruct r as [[re|] [rf|]]; cbn in *; try done.
    + destruct H as (_ & _ & H). specialize (H e' f' Hi E'). specialize (Hl rf eq_refl). lia.
    + by rewrite H in E'.
  - destruct r as [[re|] [rf|]]; cbn in *; try done.
    + destruct H as (Hi & E & H). split; [set_solver|]. split; [done|].
      intros e' f' [Hi'| ->%elem_of_list_singleton]%elem_of_app E'; [by eapply H|].
      rewrite E' in L. cbn in L. apply bool_decide_eq_false in L. lia.
    + intros e' [Hi| ->%elem_of_list_singleton]%elem_of_app; [by apply H|].
      by destruct (frac e); [cbn in L|].
Qed.

Lemma narrow_other w res b e id :
  id ≠ b_id b → narrow_one w res (b, e) !! id = res !! id.
Proof. intros. cbn. by rewrite lookup_insert_ne. Qed.

Lemma narrow_ray w b es res :
  foldl (narrow_one w) res ((λ e, (b, e)) <$> es) !! b_id b =
    match es with
    | [] => res !! b_id b
    | _ => Some (best (w_frac w (b_geo b)) (default (None, None) (res !! b_id b)) es)
    end.
Proof.
  revert res. induction es as [|e es IH]; intros res; cbn [fmap list_fmap foldl]; [done|].
  rewrite IH. cbn [narrow_one]. rewrite lookup_insert. destruct es; [done|]. done.
Qed.
Lemma narrow_ray_other w b es res id :
  id ≠ b_id b → foldl (narrow_one w) res ((λ e, (b, e)) <$> es) !! id = res !! id.
Proof.
  intros Hne. revert res. induction es as [|e es IH]; intros res; cbn [fmap list_fmap foldl]; [done|].
  rewrite IH. by apply narrow_other.
Qed.

Lemma results_app w bs res id :
  id ∉ (b_id <$> bs) →
  foldl (narrow_one w) res (flat_map (λ b, (λ e, (b, e)) <$> candidates w b) bs) !! id = res !! id.
Proof.
  revert res. induction bs as [|b bs IH]; intros res Hn; cbn [flat_map foldl]; [done|].
  rewrite foldl_app. rewrite IH by set_solver. apply narrow_ray_other. set_solver.
Qed.

Lemma ray_results_ok w bs b :
  NoDup (b_id <$> bs) → b ∈ bs →
  ray_results w bs !! b_id b =
    match candidates w b with
    | [] => None
    | es => Some (best (w_frac w (b_geo b)) (None, None) es)
    end.
Proof.
  unfold ray_results.
  assert (∀ res, res !! b_id b = None → NoDup (b_id <$> bs) → b ∈ bs →
    foldl (narrow_one w) res (flat_map (λ b, (λ e, (b, e)) <$> candidates w b) bs) !! b_id b =
    match candidates w b with
    | [] => None
    | es => Some (best (w_frac w (b_geo b)) (None, None) es)
    end) as H; [|by apply H].
  induction bs as [|b0 bs IH]; intros res Hr Hn Hi; [by apply elem_of_nil in Hi|].
  cbn [flat_map]. rewrite foldl_app. rewrite fmap_cons in Hn. apply NoDup_cons in Hn as [Hn Hn'].
  apply elem_of_cons in Hi as [->|Hi].
  - rewrite results_app by done. rewrite narrow_ray, Hr. by destruct (candidates w b0).
  - apply IH; [|done|done]. rewrite narrow_ray_other; [done|].
    intros E. apply Hn. rewrite <- E. by apply elem_of_list_fmap_1.
Qed.
Lemma ray_results_dom w bs id :
  id ∉ (b_id <$> bs) → ray_results w bs !! id = None.
Proof. intros. unfold ray_results. by rewrite results_app. Qed.

(** ** Queries of boxes *)
Lemma push_new_ok l e : NoDup l → NoDup (push_new l e) ∧ ∀ x, x ∈ push_new l e ↔ x ∈ l ∨ x = e.
Proof.
  intros Hl. unfold push_new. destruct (decide (e ∈ l)) as [H|H].
  - split; [done|]. intros x. naive_solver.
  - split; [|set_solver]. apply NoDup_app. split; [done|]. split; [set_solver|]. apply NoDup_singleton.
Qed.
Lemma push_all_ok l es : NoDup l → NoDup (foldl push_new l es) ∧ ∀ x, x ∈ foldl push_new l es ↔ x ∈ l ∨ x ∈ es.
Proof.
  revert l. induction es as [|e es IH]; intros l Hl; cbn [foldl].
  - split; [done|]. set_solver.
  - destruct (push_new_ok l e Hl) as [Hn Hm]. destruct (IH _ Hn) as [Hn' Hm']. split; [done|].
    intros x. rewrite Hm', Hm. set_solver.
Qed.
Lemma push_nil es : NoDup (foldl push_new [] es) ∧ ∀ x, x ∈ foldl push_new [] es ↔ x ∈ es.
Proof. destruct (push_all_ok [] es (NoDup_nil_2)) as [H1 H2]. split; [done|]. set_solver. Qed.

Lemma elem_flat_map {A B} (f : A → list B) l x : x ∈ flat_map f l ↔ ∃ y, y ∈ l ∧ x ∈ f y.
Proof. induction l as [|a l IH]; cbn [flat_map]; [set_solver|]. rewrite elem_of_app, IH. set_solver. Qed.

Lemma box_ok w a : ask_ray a = false → box_answer_ok w a (box_answer w a).
Proof.
  destruct a as [g ign|g p n i|g]; [done|..]; intros _; cbn; [done|].
  destruct (push_nil (w_isl w g)) as [H1 H2]. destruct (push_nil (w_np w g)) as [H3 H4].
  split; [done|]. split; [apply push_nil|]. split; [done|]. split; [done|]. split; [done|].
  intros e. rewrite (proj2 (push_nil _)), elem_flat_map.
  setoid_rewrite elem_of_app. setoid_rewrite elem_of_list_filter. naive_solver.
Qed.

(** ** Invariant *)
Definition out_ids (k : bool) : list (nat * ask) → list nat :=
  omap (λ '(id, a), if decide (ask_ray a = k) then Some id else None).
Definition in_ids (k : bool) : list (nat * bool * answer) → list nat :=
  omap (λ '(id, r, _), if decide (r = k) then Some id else None).
Definition worker_ids (k : bool) (s : ast) : list nat :=
  if k then (b_id <$> a_broad s) ++ unanswered (a_log s) else [].
Definition stages (k : bool) (s : ast) : list nat :=
  out_ids k (a_out s) ++ worker_ids k s ++ in_ids k (a_in s) ++ calls k (a_log s).
Definition count (k : bool) (s : ast) : nat := length (issues k (a_log s)).

Record inv (M : nat) (s : ast) : Prop := {
  i_next : ∀ k, a_next s k = (count k s mod M)%nat;
  i_seq : ∀ k, issues k (a_log s) = seq 0 (count k s);
  i_perm : ∀ k, stages k s ≡ₚ seq 0 (count k s);
  i_ctx : ∀ k id g d, a_ctx s !! (k, id) = Some (g, d) ↔
            id ∉ calls k (a_log s) ∧ ∃ a, ask_ray a = k ∧ ask_geo a = g ∧ LIssue id a d ∈ a_log s;
  i_out : ∀ id a, (id, a) ∈ a_out s → ∃ d, LIssue id a d ∈ a_log s;
  i_broad : ∀ b, b ∈ a_broad s → ∃ ign d w0, LIssue (b_id b) (AskRay (b_geo b) ign) d ∈ a_log s
            ∧ LTake (b_id b) w0 ∈ a_log s ∧ b_ignore b = omap (λ e, w_map w0 !! e) ign;
  i_in : ∀ id k ans, (id, k, ans) ∈ a_in s → answered (a_log s) k id ans;
  i_call : ∀ id k g d m ans', LCall id k g d m ans' ∈ a_log s →
            (∃ a, ask_ray a = k ∧ ask_geo a = g ∧ LIssue id a d ∈ a_log s)
            ∧ ∃ ans, answered (a_log s) k id ans ∧ ans' = translate m ans;
  i_none : ∀ id w, LNone id w ∈ a_log s → ray_missed (a_log s) id w
}.

Lemma issues_app k l l' : issues k (l ++ l') = issues k l ++ issues k l'.
Proof. apply omap_app. Qed.
Lemma calls_app k l l' : calls k (l ++ l') = calls k l ++ calls k l'.
Proof. apply omap_app. Qed.
Lemma unanswered_app l l' : unanswered (l ++ l') = unanswered l ++ unanswered l'.
Proof. apply omap_app. Qed.
Lemma out_ids_app k l l' : out_ids k (l ++ l') = out_ids k l ++ out_ids k l'.
Proof. apply omap_app. Qed.
Lemma in_ids_app k l l' : in_ids k (l ++ l') = in_ids k l ++ in_ids k l'.
Proof. apply omap_app. Qed.

Lemma answered_mono l l' k id ans : l ⊆ l' → answered l k id ans → answered l' k id ans.
Proof.
  intros Hs (a & d & w & H1 & H2 & H3 & H4). exists a, d, w. split; [by apply Hs|]. split; [done|].
  split; [by apply Hs|]. destruct a; try done. destruct H4 as (w0 & ? & ?). exists w0. split; [by apply Hs|done].
Qed.
Lemma missed_mono l l' id w : l ⊆ l' → ray_missed l id w → ray_missed l' id w.
Proof.
  intros Hs (g & ign & d & w0 & H1 & H2 & H3). exists g, ign, d, w0.
  split; [by apply Hs|]. split; [by apply Hs|done].
Qed.

Lemma issues_elem k l id : id ∈ issues k l ↔ ∃ a d, ask_ray a = k ∧ LIssue id a d ∈ l.
Proof.
  unfold issues. rewrite elem_of_list_omap. split.
  - intros (e & He & H). destruct e; try done. destruct (decide _); [|done]. injection H as ->. eauto.
  - intros (a & d & Hk & H). exists (LIssue id a d). split; [done|]. by rewrite decide_True.
Qed.
Lemma calls_elem k l id : id ∈ calls k l ↔ ∃ g d m ans, LCall id k g d m ans ∈ l.
Proof.
  unfold calls. rewrite elem_of_list_omap. split.
  - intros (e & He & H). destruct e; try done. destruct (decide _); [|done]. injection H as ->. subst. eauto.
  - intros (g & d & m & ans & H). eexists. split; [done|]. cbn. by rewrite decide_True.
Qed.
Lemma unanswered_elem l id : id ∈ unanswered l ↔ ∃ w, LNone id w ∈ l.
Proof.
  unfold unanswered. rewrite elem_of_list_omap. split.
  - intros (e & He & H). destruct e; try done. injection H as ->. eauto.
  - intros (w & H). eexists. by split.
Qed.

(** Two requests of one kind with the same id are the same. *)
Lemma issue_unique k l n id a d a' d' :
  issues k l = seq 0 n → LIssue id a d ∈ l → LIssue id a' d' ∈ l → ask_ray a = k → ask_ray a' = k →
  a = a' ∧ d = d'.
Proof.
  intros Hs. assert (NoDup (issues k l)) as Hn by (rewrite Hs; apply NoDup_seq). clear Hs.
  induction l as [|e l IH]; intros H H' K K'; [by apply elem_of_nil in H|].
  change (e :: l) with ([e] ++ l) in Hn. rewrite issues_app in Hn.
  apply NoDup_app in Hn as (Hn1 & Hn2 & Hn3).
  apply elem_of_cons in H as [<-|H]; apply elem_of_cons in H' as [E|H'].
  - by injection E.
  - exfalso. apply (Hn2 id); [cbn; rewrite decide_True by done; set_solver|]. apply issues_elem. eauto.
  - subst e. exfalso. apply (Hn2 id); [cbn; rewrite decide_True by done; set_solver|]. apply issues_elem. eauto.
  - by apply IH.
Qed.

Section Run.
Variable M : nat.

Lemma count_issue s q k :
  count k (a_issue M s q) = (count k s + if decide (ask_ray q.1 = k) then 1 else 0)%nat.
Proof.
  destruct q as [a d]. unfold count. cbn [a_issue a_log fst]. rewrite issues_app, app_length. f_equal.
  cbn. by destruct (decide _).
Qed.

Lemma inv_issue s q :
  inv M s → (count (ask_ray q.1) s < M)%nat → inv M (a_issue M s q).
Proof.
  intros I Hc. destruct q as [a d]. cbn [fst] in Hc.
  assert (Hid : a_next s (ask_ray a) = count (ask_ray a) s) by (rewrite (i_next _ _ I); by apply Nat.mod_small).
  pose proof (count_issue s (a, d)) as Hcount. cbn [fst] in Hcount.
  assert (Hsub : a_log s ⊆ a_log (a_issue M s (a, d))) by (cbn; set_solver).
  split.
  - intros k. rewrite Hcount. cbn [a_issue a_next]. destruct (decide (k = ask_ray a)) as [->|Hk].
    + rewrite decide_True by done. rewrite Hid. f_equal. lia.
    + rewrite decide_False by done. rewrite (i_next _ _ I). f_equal. lia.
  - intros k. rewrite Hcount. cbn [a_issue a_log]. rewrite issues_app, (i_seq _ _ I). cbn.
    destruct (decide (ask_ray a = k)) as [<-|Hk]; cbn.
    + rewrite seq_app. cbn. by rewrite Hid.
    + by rewrite app_nil_r, Nat.add_0_r.
  - intros k. rewrite Hcount. unfold stages, worker_ids. cbn [a_issue a_log a_out a_broad a_in].
    rewrite out_ids_app, calls_app, unanswered_app. cbn. rewrite !app_nil_r.
    pose proof (i_perm _ _ I k) as P. unfold stages, worker_ids in P.
    destruct (decide (ask_ray a = k)) as [<-|Hk]; cbn.
    + rewrite seq_app. cbn. rewrite <- P, Hid. solve_Permutation.
    + by rewrite app_nil_r, Nat.add_0_r.
  - intros k id g d'. cbn [a_issue a_ctx a_log]. rewrite calls_app. cbn. rewrite app_nil_r.
    destruct (decide ((k, id) = (ask_ray a, a_next s (ask_ray a)))) as [E|E].
    + injection E as -> ->. rewrite lookup_insert.
      assert (Hfresh : ∀ a' d', ask_ray a' = ask_ray a → LIssue (a_next s (ask_ray a)) a' d' ∉ a_log s).
      { intros a' d'' Hk Hi. assert (H : a_next s (ask_ray a) ∈ issues (ask_ray a) (a_log s)) by (apply issues_elem; eauto).
        rewrite (i_seq _ _ I), Hid in H. apply elem_of_seq in H. lia. }
      split.
      * intros [= <- <-]. split.
        -- intros Hcall. apply calls_elem in Hcall as (g' & d'' & m & ans & Hcall).
           apply (i_call _ _ I) in Hcall as [(a' & ? & ? & Hi) _]. by eapply Hfresh.
        -- exists a. split; [done|]. split; [done|]. set_solver.
      * intros (_ & a' & Hk & <- & [Hi|Hi]%elem_of_app).
        -- exfalso. by eapply Hfresh.
        -- apply elem_of_list_singleton in Hi. by injection Hi as -> ->.
    + rewrite lookup_insert_ne by done. rewrite (i_ctx _ _ I). split.
      * intros (? & a' & ? & ? & ?). split; [done|]. exists a'. set_solver.
      * intros (? & a' & Hk & ? & [Hi|Hi]%elem_of_app); [split; [done|]; by exists a'|].
        apply elem_of_list_singleton in Hi. injection Hi as -> -> ->. by rewrite Hk in E.
  - intros id a' [H|H%elem_of_list_singleton]%elem_of_app.
    + apply (i_out _ _ I) in H as [d' H]. exists d'. by apply Hsub.
    + injection H as -> ->. exists d. cbn. set_solver.
  - intros b H. apply (i_broad _ _ I) in H as (ign & d' & w0 & ? & ? & ?).
    exists ign, d', w0. split; [by apply Hsub|]. split; [by apply Hsub|done].
  - intros id k ans H. apply (i_in _ _ I) in H. by eapply answered_mono.
  - intros id k g d' m ans' [H|H%elem_of_list_singleton]%elem_of_app; [|done].
    apply (i_call _ _ I) in H as [(a' & ? & ? & ?) (ans & ? & ?)]. split.
    + exists a'. split; [done|]. split; [done|]. by apply Hsub.
    + exists ans. split; [by eapply answered_mono|done].
  - intros id w [H|H%elem_of_list_singleton]%elem_of_app; [|done].
    apply (i_none _ _ I) in H. by eapply missed_mono.
Qed.

Lemma inv_handle s : inv M s → inv M (a_handle s).
Proof.
  intros I. unfold a_handle. destruct (a_out s) as [|[id a] out] eqn:Eo; [done|].
  destruct (i_out _ _ I id a) as [d Hd]; [rewrite Eo; set_solver|].
  pose proof (i_perm _ _ I) as P. unfold stages, worker_ids in P. rewrite Eo in P.
  assert (Hout : ∀ id' a', (id', a') ∈ out → ∃ d, LIssue id' a' d ∈ a_log s).
  { intros. apply (i_out _ _ I). rewrite Eo. set_solver. }
  destruct (ask_ray a) eqn:Ek.
  - destruct a as [g ign| |]; try done.
    assert (Hsub : a_log s ⊆ a_log s ++ [LTake id (a_world s)]) by set_solver.
    assert (Hc : ∀ k, count k (Ast (a_next s) (a_ctx s) (a_map s) out
              (a_broad s ++ [BRay id g (omap (λ e, w_map (a_world s) !! e) ign)])
              (a_in s) (a_world s) (a_log s ++ [LTake id (a_world s)])) = count k s).
    { intros k. unfold count. cbn. by rewrite issues_app, app_nil_r. }
    split; cbn [a_next a_ctx a_map a_out a_broad a_in a_world a_log].
    + intros k. rewrite Hc. apply I.
    + intros k. rewrite Hc, issues_app. cbn. rewrite app_nil_r. apply I.
    + intros k. rewrite Hc, <- P. unfold stages, worker_ids.
      cbn [a_next a_ctx a_map a_out a_broad a_in a_world a_log].
      rewrite calls_app, unanswered_app, fmap_app. cbn. rewrite !app_nil_r.
      destruct k; cbn; [solve_Permutation|done].
    + intros k id' g' d'. rewrite calls_app. cbn. rewrite app_nil_r, (i_ctx _ _ I). split.
      * intros (? & a' & ? & ? & ?). split; [done|]. exists a'. set_solver.
      * intros (? & a' & ? & ? & [?|?%elem_of_list_singleton]%elem_of_app); [|done]. split; [done|]. by exists a'.
    + intros id' a' H. destruct (Hout _ _ H) as [d' ?]. exists d'. by apply Hsub.
    + intros b [H|H%elem_of_list_singleton]%elem_of_app.
      * apply (i_broad _ _ I) in H as (ign' & d' & w0 & ? & ? & ?). exists ign', d', w0.
        split; [by apply Hsub|]. split; [by apply Hsub|done].
      * subst b. exists ign, d, (a_world s). cbn. split; [by apply Hsub|]. split; [set_solver|done].
    + intros id' k ans H. apply (i_in _ _ I) in H. by eapply answered_mono.
    + intros id' k g' d' m ans' [H|H%elem_of_list_singleton]%elem_of_app; [|done].
      apply (i_call _ _ I) in H as [(a' & ? & ? & ?) (ans & ? & ?)]. split.
      * exists a'. split; [done|]. split; [done|]. by apply Hsub.
      * exists ans. split; [by eapply answered_mono|done].
    + intros id' w [H|H%elem_of_list_singleton]%elem_of_app; [|done].
      apply (i_none _ _ I) in H. by eapply missed_mono.
  - set (ans := box_answer (a_world s) a).
    replace (match a with AskRay g ign => _ | _ => _ end) with
      (Ast (a_next s) (a_ctx s) (a_map s) out (a_broad s) (a_in s ++ [(id, false, ans)])
              (a_world s) (a_log s ++ [LAnswer id false (a_world s) ans])) by (by destruct a).
    assert (Hsub : a_log s ⊆ a_log s ++ [LAnswer id false (a_world s) ans]) by set_solver.
    assert (Hc : ∀ k, count k (Ast (a_next s) (a_ctx s) (a_map s) out (a_broad s) (a_in s ++ [(id, false, ans)])
              (a_world s) (a_log s ++ [LAnswer id false (a_world s) ans])) = count k s).
    { intros k. unfold count. cbn. by rewrite issues_app, app_nil_r. }
    split; cbn [a_next a_ctx a_map a_out a_broad a_in a_world a_log].
    + intros k. rewrite Hc. apply I.
    + intros k. rewrite Hc, issues_app. cbn. rewrite app_nil_r. apply I.
    + intros k. rewrite Hc, <- P. unfold stages, worker_ids.
      cbn [a_next a_ctx a_map a_out a_broad a_in a_world a_log].
      rewrite calls_app, unanswered_app, in_ids_app. cbn. rewrite !app_nil_r, Ek.
      destruct k; cbn; [by rewrite app_nil_r|solve_Permutation].
    + intros k id' g' d'. rewrite calls_app. cbn. rewrite app_nil_r, (i_ctx _ _ I). split.
      * intros (? & a' & ? & ? & ?). split; [done|]. exists a'. set_solver.
      * intros (? & a' & ? & ? & [?|?%elem_of_list_singleton]%elem_of_app); [|done]. split; [done|]. by exists a'.
    + intros id' a' H. destruct (Hout _ _ H) as [d' ?]. exists d'. by apply Hsub.
    + intros b H. apply (i_broad _ _ I) in H as (ign' & d' & w0 & ? & ? & ?). exists ign', d', w0.
      split; [by apply Hsub|]. split; [by apply Hsub|done].
    + intros id' k ans0 [H|H%elem_of_list_singleton]%elem_of_app.
      * apply (i_in _ _ I) in H. by eapply answered_mono.
      * injection H as -> -> ->. exists a, d, (a_world s). split; [by apply Hsub|]. split; [done|].
        split; [set_solver|]. pose proof (box_ok (a_world s) a Ek). by destruct a.
    + intros id' k g' d' m ans' [H|H%elem_of_list_singleton]%elem_of_app; [|done].
      apply (i_call _ _ I) in H as [(a' & ? & ? & ?) (ans0 & ? & ?)]. split.
      * exists a'. split; [done|]. split; [done|]. by apply Hsub.
      * exists ans0. split; [by eapply answered_mono|done].
    + intros id' w [H|H%elem_of_list_singleton]%elem_of_app; [|done].
      apply (i_none _ _ I) in H. by eapply missed_mono.
Qed.

(** *** The worker's update *)
Lemma broad_nodup s : inv M s → NoDup (b_id <$> a_broad s).
Proof.
  intros I. pose proof (i_perm _ _ I true) as P. unfold stages, worker_ids in P.
  assert (N : NoDup (seq 0 (count true s))) by apply NoDup_seq. rewrite <- P in N.
  apply NoDup_app in N as (_ & _ & N). apply NoDup_app in N as (N & _). by apply NoDup_app in N as (N & _).
Qed.

(** Ids with an answer and ids without. *)
Lemma split_results w bs :
  NoDup (b_id <$> bs) →
  ((map_to_list (ray_results w bs)).*1 ++ (b_id <$> filter (λ b, ray_results w bs !! b_id b = None) bs))
    ≡ₚ b_id <$> bs.
Proof.
  intros Hn. apply NoDup_Permutation.
  - apply NoDup_app. split; [apply NoDup_fst_map_to_list|]. split.
    + intros id (r & Hr)%elem_of_list_fmap. destruct Hr as (-> & Hr). destruct r as [id r]. cbn.
      apply elem_of_map_to_list in Hr. intros (b & -> & Hb)%elem_of_list_fmap.
      apply elem_of_list_filter in Hb as [Hb _]. by rewrite Hb in Hr.
    + clear -Hn. revert Hn. generalize (ray_results w bs). intros m.
      induction bs as [|b bs IH]; intros Hn; [constructor|].
      rewrite fmap_cons in Hn. apply NoDup_cons in Hn as [Hn1 Hn2]. rewrite filter_cons.
      destruct (decide _); [|by apply IH]. rewrite fmap_cons. apply NoDup_cons. split; [|by apply IH].
      intros (b' & E & Hb')%elem_of_list_fmap. apply Hn1. apply elem_of_list_filter in Hb' as [_ Hb'].
      rewrite E. by apply elem_of_list_fmap_1.
  - done.
  - intros id. rewrite elem_of_app. split.
    + intros [H|H].
      * apply elem_of_list_fmap in H as ([id' r] & -> & H). apply elem_of_map_to_list in H. cbn.
        destruct (decide (id' ∈ (b_id <$> bs))) as [Hd|Hd]; [done|].
        by rewrite (ray_results_dom w bs id' Hd) in H.
      * apply elem_of_list_fmap in H as (b & -> & Hb). apply elem_of_list_filter in Hb as [_ Hb].
        by apply elem_of_list_fmap_1.
    + intros (b & -> & Hb)%elem_of_list_fmap. destruct (ray_results w bs !! b_id b) as [r|] eqn:E.
      * left. apply elem_of_list_fmap. exists (b_id b, r). split; [done|]. by apply elem_of_map_to_list.
      * right. apply elem_of_list_fmap. exists b. split; [done|]. by apply elem_of_list_filter.
Qed.

Lemma issues_none k l (f : list event) : (∀ e, e ∈ f → match e with LIssue _ _ _ => False | _ => True end) →
  issues k (l ++ f) = issues k l.
Proof.
  intros H. rewrite issues_app. rewrite <- (app_nil_r (issues k l)) at 2. f_equal.
  induction f as [|e f IH]; [done|]. change (e :: f) with ([e] ++ f). rewrite issues_app, IH by set_solver.
  specialize (H e ltac:(set_solver)). by destruct e.
Qed.
Lemma calls_none k l (f : list event) : (∀ e, e ∈ f → match e with LCall _ _ _ _ _ _ => False | _ => True end) →
  calls k (l ++ f) = calls k l.
Proof.
  intros H. rewrite calls_app. rewrite <- (app_nil_r (calls k l)) at 2. f_equal.
  induction f as [|e f IH]; [done|]. change (e :: f) with ([e] ++ f). rewrite calls_app, IH by set_solver.
  specialize (H e ltac:(set_solver)). by destruct e.
Qed.

Lemma inv_update s : inv M s → inv M (a_update s).
Proof.
  intros I. pose proof (broad_nodup s I) as Hn.
  set (w := a_world s). set (rs := ray_results w (a_broad s)).
  set (out := (λ '(id, (e, f)), (id, AnsRay e f)) <$> map_to_list rs).
  set (l1 := (λ '(id, ans), LAnswer id true w ans) <$> out).
  set (l2 := (λ b, LNone (b_id b) w) <$> filter (λ b, rs !! b_id b = None) (a_broad s)).
  change (a_update s) with (Ast (a_next s) (a_ctx s) (a_map s) (a_out s) []
      (a_in s ++ ((λ '(id, ans), (id, true, ans)) <$> out)) w (a_log s ++ (l1 ++ l2))).
  assert (Hl : ∀ e, e ∈ l1 ++ l2 → (∃ id ans, (id, ans) ∈ out ∧ e = LAnswer id true w ans)
                 ∨ ∃ b, b ∈ a_broad s ∧ rs !! b_id b = None ∧ e = LNone (b_id b) w).
  { intros e [H|H]%elem_of_app.
    - apply elem_of_list_fmap in H as ([id ans] & -> & H). left. eauto.
    - apply elem_of_list_fmap in H as (b & -> & H). apply elem_of_list_filter in H as [? ?]. right. eauto. }
  assert (Hi1 : ∀ k, issues k (a_log s ++ (l1 ++ l2)) = issues k (a_log s)).
  { intros k. apply issues_none. intros e [(? & ? & _ & ->)|(? & _ & _ & ->)]%Hl; done. }
  assert (Hc1 : ∀ k, calls k (a_log s ++ (l1 ++ l2)) = calls k (a_log s)).
  { intros k. apply calls_none. intros e [(? & ? & _ & ->)|(? & _ & _ & ->)]%Hl; done. }
  assert (Hu : unanswered (a_log s ++ (l1 ++ l2)) =
    unanswered (a_log s) ++ (b_id <$> filter (λ b, rs !! b_id b = None) (a_broad s))).
  { rewrite !unanswered_app. f_equal. unfold l1, l2. clear. induction out as [|[id ans] out IH]; cbn.
    - induction (filter _ (a_broad s)) as [|b bs IH]; [done|]. cbn. f_equal. done.
    - done. }
  assert (Hin : in_ids true ((λ '(id, ans), (id, true, ans)) <$> out) = (map_to_list rs).*1).
  { unfold out. clear. induction (map_to_list rs) as [|[id [e f]] l IH]; [done|]. cbn. f_equal. done. }
  assert (Hin' : in_ids false ((λ '(id, ans), (id, true, ans)) <$> out) = []).
  { clear. induction out as [|[id ans] out IH]; done. }
  assert (Hsub : a_log s ⊆ a_log s ++ (l1 ++ l2)) by (intros e He; apply elem_of_app; by left).
  assert (Hans : ∀ id ans, (id, ans) ∈ out → LAnswer id true w ans ∈ a_log s ++ (l1 ++ l2)).
  { intros id ans H. apply elem_of_app. right. apply elem_of_app. left.
    apply (elem_of_list_fmap_1 (λ '(id, ans), LAnswer id true w ans) _ (id, ans)). done. }
  clearbody l1 l2.
  assert (Hcand : ∀ b, b ∈ a_broad s → rs !! b_id b =
    match candidates w b with [] => None | es => Some (best (w_frac w (b_geo b)) (None, None) es) end).
  { intros b Hb. by apply ray_results_ok. }
  assert (Hout : ∀ id ans, (id, ans) ∈ out → ∃ b, b ∈ a_broad s ∧ b_id b = id
                    ∧ ray_answer_ok w (b_geo b) (b_ignore b) ans).
  { intros id ans H. apply elem_of_list_fmap in H as ([id' [e f]] & [= -> ->] & H).
    apply elem_of_map_to_list in H.
    destruct (decide (id' ∈ (b_id <$> a_broad s))) as [Hd|Hd]; [|unfold rs in H; by rewrite (ray_results_dom _ _ _ Hd) in H].
    apply elem_of_list_fmap in Hd as (b & -> & Hb). exists b. split; [done|]. split; [done|].
    rewrite (Hcand b Hb) in H. destruct (candidates w b) as [|c cs] eqn:Ec; [done|].
    injection H as H. cbn. fold (candidates w b). rewrite Ec.
    pose proof (best_ok (w_frac w (b_geo b)) (c :: cs) [] (None, None)) as B.
    assert (H' : best (w_frac w (b_geo b)) (None, None) (c :: cs) = (e, f)) by exact H.
    rewrite H' in B. split; [apply B; intros e' He'; by apply elem_of_nil in He'|].
    exists c. set_solver. }
  split; cbn [a_next a_ctx a_map a_out a_broad a_in a_world a_log].
  - intros k. unfold count. cbn [a_log]. rewrite Hi1. apply I.
  - intros k. unfold count. cbn [a_log]. rewrite !Hi1. apply I.
  - intros k. unfold count, stages, worker_ids. cbn [a_next a_ctx a_map a_out a_broad a_in a_world a_log].
    rewrite Hi1, Hc1, Hu, in_ids_app. pose proof (i_perm _ _ I k) as P. unfold count, stages, worker_ids in P.
    rewrite <- P. destruct k.
    + rewrite Hin. cbn. rewrite <- (split_results w (a_broad s) Hn). fold rs. solve_Permutation.
    + by rewrite Hin', app_nil_r.
  - intros k id g d. rewrite Hc1, (i_ctx _ _ I). split.
    + intros (? & a & ? & ? & ?). split; [done|]. exists a. split; [done|]. split; [done|]. by apply Hsub.
    + intros (? & a & ? & ? & [?|H]%elem_of_app); [split; [done|]; by exists a|].
      apply Hl in H as [(? & ? & _ & ?)|(? & _ & _ & ?)]; done.
  - intros id a H. destruct (i_out _ _ I _ _ H) as [d ?]. exists d. by apply Hsub.
  - intros b H. by apply elem_of_nil in H.
  - intros id k ans [H|H]%elem_of_app.
    + apply (i_in _ _ I) in H. by eapply answered_mono.
    + apply elem_of_list_fmap in H as ([id' ans'] & [= -> -> ->] & H).
      destruct (Hout _ _ H) as (b & Hb & <- & Hok).
      destruct (i_broad _ _ I b Hb) as (ign & d & w0 & Hi & Ht & Hig).
      exists (AskRay (b_geo b) ign), d, w. split; [by apply Hsub|]. split; [done|].
      split; [by apply Hans|]. exists w0. split; [by apply Hsub|]. by rewrite <- Hig.
  - intros id k g d m ans' [H|H]%elem_of_app.
    + apply (i_call _ _ I) in H as [(a & ? & ? & ?) (ans & ? & ?)]. split.
      * exists a. split; [done|]. split; [done|]. by apply Hsub.
      * exists ans. split; [by eapply answered_mono|done].
    + apply Hl in H as [(? & ? & _ & ?)|(? & _ & _ & ?)]; done.
  - intros id w' [H|H]%elem_of_app.
    + apply (i_none _ _ I) in H. by eapply missed_mono.
    + apply Hl in H as [(? & ? & _ & ?)|(b & Hb & Hr & E)]; [done|]. injection E as -> ->.
      destruct (i_broad _ _ I b Hb) as (ign & d & w0 & Hi & Ht & Hig).
      exists (b_geo b), ign, d, w0. split; [by apply Hsub|]. split; [by apply Hsub|].
      rewrite <- Hig. intros e He. destruct (decide (e ∈ b_ignore b)) as [|Hne]; [done|].
      assert (Hc : e ∈ candidates w b) by (by apply elem_of_list_filter).
      rewrite (Hcand b Hb) in Hr. destruct (candidates w b); [by apply elem_of_nil in Hc|done].
Qed.

(** *** Delivery *)
Definition drop_ctx (k : bool) (id : nat) (s : ast) : ast :=
  Ast (a_next s) (delete (k, id) (a_ctx s)) (a_map s) (a_out s) (a_broad s) (a_in s) (a_world s) (a_log s).
Definition asked_in (k : bool) (cb : list (ask * nat)) : nat :=
  length (filter (λ q, ask_ray q.1 = k) cb).

Lemma inv_issues s cb :
  inv M s → (∀ k, count k s + asked_in k cb ≤ M)%nat →
  inv M (foldl (a_issue M) s cb) ∧ ∀ k, count k (foldl (a_issue M) s cb) = (count k s + asked_in k cb)%nat.
Proof.
  revert s. induction cb as [|[a d] cb IH]; intros s I Hc; cbn [foldl].
  - split; [done|]. intros k. cbn. lia.
  - assert (Hf : ∀ k, asked_in k ((a, d) :: cb) =
        ((if decide (ask_ray a = k) then 1 else 0) + asked_in k cb)%nat).
    { intros k. unfold asked_in. rewrite filter_cons. cbn. by destruct (decide _). }
    destruct (IH (a_issue M s (a, d))) as [I' Hc'].
    + apply inv_issue; [done|]. specialize (Hc (ask_ray a)). rewrite Hf, decide_True in Hc by done. cbn. lia.
    + intros k. rewrite count_issue. specialize (Hc k). rewrite Hf in Hc. cbn. lia.
    + split; [done|]. intros k. rewrite Hc', count_issue, Hf. cbn. lia.
Qed.

(** Forgetting the context before or after the callback asks is the same. *)
Lemma drop_issue k id s cb :
  inv M (drop_ctx k id s) → (id < count k s)%nat → (∀ k, count k s + asked_in k cb ≤ M)%nat →
  drop_ctx k id (foldl (a_issue M) s cb) = foldl (a_issue M) (drop_ctx k id s) cb.
Proof.
  revert s. induction cb as [|[a d] cb IH]; intros s I Hid Hc; cbn [foldl]; [done|].
  assert (Hf : ∀ k, asked_in k ((a, d) :: cb) =
      ((if decide (ask_ray a = k) then 1 else 0) + asked_in k cb)%nat).
  { intros k'. unfold asked_in. rewrite filter_cons. cbn. by destruct (decide _). }
  assert (Hlt : (count (ask_ray a) s < M)%nat).
  { specialize (Hc (ask_ray a)). rewrite Hf, decide_True in Hc by done. lia. }
  assert (E : drop_ctx k id (a_issue M s (a, d)) = a_issue M (drop_ctx k id s) (a, d)).
  { unfold drop_ctx, a_issue. cbn. rewrite delete_insert_ne; [done|].
    intros E. injection E as E1 E2. pose proof (i_next _ _ I (ask_ray a)) as Hn.
    change (a_next s (ask_ray a) = (count (ask_ray a) s mod M)%nat) in Hn.
    rewrite Nat.mod_small in Hn by done. subst k. lia. }
  rewrite <- E. apply IH.
  - rewrite E. apply inv_issue; done.
  - rewrite count_issue. lia.
  - intros k'. rewrite count_issue. specialize (Hc k'). rewrite Hf in Hc. cbn. lia.
Qed.

Lemma inv_deliver s cb :
  inv M s → (∀ k, count k s + asked_in k cb ≤ M)%nat →
  ∃ s', a_deliver M s cb = Ok s' ∧ inv M s' ∧ ∀ k, (count k s' ≤ count k s + asked_in k cb)%nat.
Proof.
  intros I Hc. unfold a_deliver. destruct (a_in s) as [|[[id ray] ans] inn] eqn:Ei.
  { exists s. split; [done|]. split; [done|]. intros; lia. }
  pose proof (i_perm _ _ I) as P. unfold stages in P. rewrite Ei in P.
  assert (Hinids : id ∈ in_ids ray ((id, ray, ans) :: inn)).
  { cbn. rewrite decide_True by done. set_solver. }
  assert (Hid : (id < count ray s)%nat).
  { assert (id ∈ seq 0 (count ray s)) as H; [|apply elem_of_seq in H; lia].
    rewrite <- P. set_solver. }
  assert (Hnc : id ∉ calls ray (a_log s)).
  { assert (N : NoDup (seq 0 (count ray s))) by apply NoDup_seq. rewrite <- (P ray) in N.
    apply NoDup_app in N as (_ & _ & N). apply NoDup_app in N as (_ & _ & N).
    apply NoDup_app in N as (_ & N & _). by apply N. }
  destruct (i_in _ _ I id ray ans) as (a & d & w & Hi & Ha & Hw & Hok); [rewrite Ei; set_solver|].
  assert (Hctx : a_ctx s !! (ray, id) = Some (ask_geo a, d)).
  { apply (i_ctx _ _ I). split; [done|]. by exists a. }
  rewrite Hctx. cbn [opt_res mbind res_bind].
  set (e := LCall id ray (ask_geo a) d (a_map s) (translate (a_map s) ans)).
  set (s1 := Ast (a_next s) (a_ctx s) (a_map s) (a_out s) (a_broad s) inn (a_world s) (a_log s ++ [e])).
  change (Ast (a_next ?x) _ _ _ _ _ _ _) with (drop_ctx ray id x).
  assert (Hsub : a_log s ⊆ a_log s ++ [e]) by set_solver.
  assert (Hcount : ∀ k, count k s1 = count k s).
  { intros k. unfold count. cbn. by rewrite issues_app, app_nil_r. }
  assert (I1 : inv M (drop_ctx ray id s1)).
  { assert (Hcount' : ∀ k, count k (drop_ctx ray id s1) = count k s) by apply Hcount.
    split; unfold drop_ctx; cbn [a_next a_ctx a_map a_out a_broad a_in a_world a_log s1].
    - intros k. rewrite Hcount'. apply I.
    - intros k. rewrite Hcount', issues_app. cbn. rewrite app_nil_r. apply I.
    - intros k. rewrite Hcount', <- P. unfold stages, worker_ids, drop_ctx.
      cbn [a_next a_ctx a_map a_out a_broad a_in a_world a_log s1].
      rewrite calls_app, unanswered_app. cbn. rewrite app_nil_r.
      destruct (decide (ray = k)); [solve_Permutation|by rewrite app_nil_r].
    - intros k id' g d'. rewrite calls_app. cbn.
      destruct (decide ((k, id') = (ray, id))) as [E|E].
      + injection E as -> ->. rewrite lookup_delete, decide_True by done. set_solver.
      + rewrite lookup_delete_ne by done. rewrite (i_ctx _ _ I). split.
        * intros (? & a' & ? & ? & ?). split; [|exists a'; set_solver].
          destruct (decide (ray = k)) as [->|]; set_solver.
        * intros (? & a' & ? & ? & [?|?%elem_of_list_singleton]%elem_of_app); [|done].
          split; [set_solver|]. by exists a'.
    - intros id' a' H. destruct (i_out _ _ I _ _ H) as [d' ?]. exists d'. by apply Hsub.
    - intros b H. apply (i_broad _ _ I) in H as (ign' & d' & w0 & ? & ? & ?). exists ign', d', w0.
      split; [by apply Hsub|]. split; [by apply Hsub|done].
    - intros id' k ans0 H. eapply answered_mono; [done|]. apply (i_in _ _ I). rewrite Ei. set_solver.
    - intros id' k g d' m ans' [H|H%elem_of_list_singleton]%elem_of_app.
      + apply (i_call _ _ I) in H as [(a' & ? & ? & ?) (ans0 & ? & ?)]. split.
        * exists a'. split; [done|]. split; [done|]. by apply Hsub.
        * exists ans0. split; [by eapply answered_mono|done].
      + injection H as -> -> -> -> -> ->. split.
        * exists a. split; [done|]. split; [done|]. by apply Hsub.
        * exists ans. split; [|done]. eapply answered_mono; [done|]. by exists a, d, w.
    - intros id' w' [H|H%elem_of_list_singleton]%elem_of_app; [|done].
      apply (i_none _ _ I) in H. by eapply missed_mono. }
  rewrite drop_issue; [|done|by rewrite Hcount|intros k; rewrite Hcount; apply Hc].
  destruct (inv_issues (drop_ctx ray id s1) cb I1) as [I2 Hc2].
  { intros k. change (count k (drop_ctx ray id s1)) with (count k s1). rewrite Hcount. apply Hc. }
  eexists. split; [done|]. split; [done|]. intros k. rewrite Hc2.
  change (count k (drop_ctx ray id s1)) with (count k s1). rewrite Hcount. lia.
Qed.

(** Requests a history makes. *)
Definition asked (k : bool) (os : list aop) : nat :=
  sum_list_with (λ o, match o with
    | AIssue a _ => if decide (ask_ray a = k) then 1%nat else 0%nat
    | ADeliver cb => asked_in k cb
    | _ => 0%nat
    end) os.

Lemma inv_run s os :
  inv M s → (∀ k, count k s + asked k os ≤ M)%nat →
  ∃ s', a_run M s os = Ok s' ∧ inv M s' ∧ ∀ k, (count k s' ≤ count k s + asked k os)%nat.
Proof.
  revert s. induction os as [|o os IH]; intros s I Hc; cbn [a_run].
  { exists s. split; [done|]. split; [done|]. intros; lia. }
  assert (∃ s1, a_step M s o = Ok s1 ∧ inv M s1
    ∧ ∀ k, (count k s1 + asked k os ≤ count k s + asked k (o :: os))%nat) as (s1 & E & I1 & Hc1).
  { destruct o as [a d| | |w|m|cb]; cbn [a_step].
    - eexists. split; [done|]. split.
      + apply inv_issue; [done|]. specialize (Hc (ask_ray a)). cbn in Hc. rewrite decide_True in Hc by done. cbn. lia.
      + intros k. rewrite count_issue. cbn. unfold asked. lia.
    - eexists. split; [done|]. split; [by apply inv_handle|]. intros k.
      enough (count k (a_handle s) = count k s) by (unfold asked; cbn [sum_list_with]; lia).
      unfold count, a_handle. destruct (a_out s) as [|[id a] out]; [done|].
      destruct a; cbn; by rewrite issues_app, app_nil_r.
    - eexists. split; [done|]. split; [by apply inv_update|]. intros k.
      enough (count k (a_update s) = count k s) by (unfold asked; cbn [sum_list_with]; lia).
      unfold count, a_update. cbn [a_log]. rewrite issues_none; [done|].
      intros e [(x & -> & _)%elem_of_list_fmap|(x & -> & _)%elem_of_list_fmap]%elem_of_app; [by destruct x|done].
    - eexists. split; [done|]. split; [|done]. destruct I. by split.
    - eexists. split; [done|]. split; [|done]. destruct I. by split.
    - destruct (inv_deliver s cb I) as (s1 & E & I1 & Hc1).
      + intros k. specialize (Hc k). cbn in Hc. unfold asked in Hc. lia.
      + exists s1. split; [done|]. split; [done|]. intros k. specialize (Hc1 k).
        cbn. unfold asked. lia. }
  rewrite E. cbn [mbind res_bind]. destruct (IH s1 I1) as (s' & E' & I' & Hc').
  { intros k. specialize (Hc k). specialize (Hc1 k). lia. }
  exists s'. split; [done|]. split; [done|]. intros k. specialize (Hc1 k). specialize (Hc' k). lia.
Qed.

Lemma inv_init w : inv M (a_init w).
Proof.
  split; cbn [a_init a_next a_ctx a_map a_out a_broad a_in a_world a_log].
  - intros k. change (count k (a_init w)) with 0%nat.
    destruct (decide (M = 0%nat)) as [->|]; [done|]. by rewrite Nat.mod_0_l.
  - done.
  - intros k. by destruct k.
  - intros k id g d. rewrite lookup_empty. split; [done|]. intros (_ & a & _ & _ & H). by apply elem_of_nil in H.
  - intros id a H. by apply elem_of_nil in H.
  - intros b H. by apply elem_of_nil in H.
  - intros id k ans H. by apply elem_of_nil in H.
  - intros id k g d m ans H. by apply elem_of_nil in H.
  - intros id w' H. by apply elem_of_nil in H.
Qed.
End Run.

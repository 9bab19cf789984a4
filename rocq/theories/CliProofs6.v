(** Entities the server creates and takes away. *)
From Coq Require Import ZArith.
From Verif Require Import Outcome MapModel CliModel CliSpec CliProofs CliProofs2 CliProofs3 CliProofs4 CliProofs5.
Local Open Scope nat_scope.

(** ** Creation *)
Lemma create_unknown_ok rs s s' ps : wfw (c_w s) → create_unknown s rs = Ok (s', ps) →
  wfw (c_w s') ∧ (∀ r, is_Some (known s r) → is_Some (known s' r)) ∧ (∀ r, r ∈ rs → is_Some (known s' r)) ∧
  (∀ e, lives s e → lives s' e) ∧
  (∀ r l, (r, l) ∈ ps → r ∈ rs ∧ ¬ lives s l ∧ lives s' l).
Proof.
  revert s ps. induction rs as [|r rs IH]; intros s ps W H; cbn [create_unknown] in H.
  - injection H as <- <-. split; [done|]. split; [done|]. split; [intros r ?%elem_of_nil; done|]. split; [done|].
    intros r l ?%elem_of_nil. done.
  - destruct (em_contains _ r) eqn:Ec.
    + destruct (IH _ _ W H) as (W' & K & R & A & N). split; [done|]. split; [done|]. split; [|split; [done|]].
      * intros r' [->|?]%elem_of_cons; [|by apply R]. apply K. unfold em_contains in Ec. by apply bool_decide_eq_true in Ec.
      * intros r' l' Hin. destruct (N _ _ Hin) as (? & ? & ?). split; [by apply elem_of_list_further|done].
    + cbn [c_create] in H.
      apply bind_ok in H as (s1 & H1 & H). apply bind_ok in H as ([s2 qs] & H2 & H). injection H as <- <-.
      apply on_map_ok in H1 as (m & Hm & Ew & _ & Ek). apply em_insert_ok in Hm as (_ & _ & ->). cbn in Ew.
      assert (wfw (c_w s1)) as W1.
      { rewrite Ew. apply (pstep_wfw s LNew _ eq_refl W). }
      assert (∀ r', is_Some (known s r') ∨ r' = r → is_Some (known s1 r')) as K1.
      { intros r' Hr. unfold known. rewrite Ek. cbn. destruct (decide (r' = r)) as [->|Hn]; [by rewrite lookup_insert|].
        rewrite lookup_insert_ne by done. by destruct Hr. }
      assert (∀ e, lives s e → lives s1 e) as A1.
      { intros e He. unfold lives. rewrite Ew. cbn. apply elem_of_union. by right. }
      destruct (IH _ _ W1 H2) as (W' & K & R & A & N). split; [done|]. split; [|split; [|split]].
      * intros r' Hr. apply K, K1. by left.
      * intros r' [->|?]%elem_of_cons; [|by apply R]. apply K, K1. by right.
      * intros e He. by apply A, A1.
      * intros r' l' [[= -> ->]|Hin]%elem_of_cons.
        -- split; [apply elem_of_list_here|]. split.
           { intros Hl. apply (wf_next _ W) in Hl. lia. }
           apply A. unfold lives. rewrite Ew. cbn. apply elem_of_union. left. by apply elem_of_singleton.
        -- destruct (N _ _ Hin) as (? & Hn & ?). split; [by apply elem_of_list_further|]. split; [|done].
           intros Hl. by apply Hn, A1.
Qed.
Lemma finish_net cs new s s' : finish_all s cs new = Ok s' →
  (∀ e, networked s e → networked s' e) ∧ (∀ r l, (r, l) ∈ new → networked s' l).
Proof.
  revert s. induction new as [|[r l] new IH]; intros s H; cbn [finish_all] in H.
  - injection H as <-. split; [done|]. intros r l ?%elem_of_nil. done.
  - apply bind_ok in H as (s1 & H1 & H2). destruct (IH _ H2) as [A B].
    assert ((∀ e, networked s e → networked s1 e) ∧ networked s1 l) as [A1 L1].
    { unfold finish_created in H1. apply bind_ok in H1 as (s3 & H3 & H4).
      assert ((∀ e, networked s e → networked s3 e) ∧ networked s3 l) as [A3 L3].
      { destruct (bool_decide_reflect (l ∈ cw_net (c_w s))) as [Hn|Hn].
        - injection H3 as <-. done.
        - apply put_net_ok in H3 as (_ & _ & Ew & _ & _). unfold networked. rewrite Ew. cbn.
          split; [intros e He; apply elem_of_union; by right|apply elem_of_union; left; by apply elem_of_singleton]. }
      assert (cw_net (c_w s1) = cw_net (c_w s3)) as En.
      { destruct (_ && _); [|by injection H4 as <-]. by apply put_node_ok in H4 as (_ & _ & -> & _). }
      unfold networked in *. rewrite En. done. }
    split; [eauto|]. intros r' l' [[= -> ->]|Hin]%elem_of_cons; [by apply A|by eapply B].
Qed.
Lemma netpath_mono (P : lab → Prop) s s' : (∀ l, P l → match l with LKill _ => False | _ => True end) → path P s s' →
  (∀ e, networked s e → networked s' e) ∧ (∀ e, lives s e → lives s' e).
Proof.
  intros HP Hp.
  apply (path_inv P (λ x, (∀ e, networked s e → networked x e) ∧ (∀ e, lives s e → lives x e))) in Hp; [done| |done].
  intros s1 l s2 Hl [A B] H. apply HP in Hl. unfold networked, lives in *.
  destruct l; cbn [pstep] in H; try done; try (by injection H as <-).
  - injection H as <-. cbn. split; [done|]. intros e He. apply elem_of_union. right. auto.
  - apply put_net_ok in H as (_ & _ & -> & _). cbn. split; [|done]. intros e' He. apply elem_of_union. right. auto.
  - by apply put_owner_ok in H as (_ & _ & -> & _).
  - reqd H. by injection H as <-.
  - by apply put_node_ok in H as (_ & _ & -> & _).
  - by apply put_edge_ok in H as (_ & _ & _ & _ & -> & _).
  - apply bind_ok in H as (s3 & H & H2). injection H2 as <-. cbn. by apply put_edge_ok in H as (_ & _ & _ & _ & -> & _).
  - by apply put_asset_ok in H as (-> & _).
  - by apply put_linked_ok in H as (-> & _).
  - by apply on_map_ok in H as (m & _ & -> & _).
  - by apply on_map_ok in H as (m & _ & -> & _).
Qed.
Lemma qlab_nokill a c d l : qlab a false c d l → match l with LKill _ => False | _ => True end.
Proof. by destruct l. Qed.
(** Every entity of the packet is known afterwards; the new counterparts were
    not in the registry before and are networked entities. *)
Lemma recv_create_ok s cs s' : wfw (c_w s) → bij (cx_map (c_k s)) → recv_create s cs = Ok s' →
  (∀ c, c ∈ cs → is_Some (known s' (ce_r c))) ∧
  (∀ e, lives s e → lives s' e) ∧
  (∀ r l, known s r = None → known s' r = Some l →
     (∃ c, c ∈ cs ∧ ce_r c = r) ∧ ¬ lives s l ∧ lives s' l ∧ networked s' l).
Proof.
  intros W B H. unfold recv_create in H.
  apply bind_ok in H as ([s1 new] & H1 & H). apply bind_ok in H as (s3 & H3 & H).
  apply bind_ok in H as (s4 & H4 & H). apply bind_ok in H as (s5 & H5 & H). injection H as <-.
  destruct (create_unknown_ok _ _ _ _ W H1) as (W1 & K1 & R1 & A1 & N1).
  pose proof (create_unknown_grows _ _ _ _ B H1) as (_ & _ & qs & Eq & G & _).
  pose proof (import_all_path true false false false _ _ _ eq_refl H3) as P3.
  pose proof (finish_all_path true false false false _ _ _ _ H4) as P4.
  pose proof (edges_all_path true false false false _ _ _ H5) as P5.
  set (s2 := match new with [] => s1 | _ => emit s1 (OMap new) end) in *.
  assert (known s2 = known s1 ∧ c_w s2 = c_w s1) as [E2 W2] by (unfold s2; by destruct new).
  assert (∀ r, known s5 r = known s1 r) as Ek.
  { intros r. pose proof (path_trans _ _ _ _ (path_trans _ _ _ _ P3 P4) P5) as P.
    destruct (qpath_keep _ _ _ _ P eq_refl) as [Em _]. unfold known. rewrite Em. exact (f_equal (λ f, f r) E2). }
  destruct (netpath_mono _ _ _ (qlab_nokill _ _ _) P3) as [_ L3].
  destruct (netpath_mono _ _ _ (qlab_nokill _ _ _) P4) as [_ L4].
  destruct (netpath_mono _ _ _ (qlab_nokill _ _ _) P5) as [M5 L5].
  destruct (finish_net _ _ _ _ H4) as [_ F4].
  assert (∀ e, lives s1 e → lives s5 e) as LL.
  { intros e He. apply L5, L4, L3. unfold lives in *. cbn. by rewrite W2. }
  change (known (importing s5 false)) with (known s5). change (lives (importing s5 false)) with (lives s5).
  change (networked (importing s5 false)) with (networked s5).
  split; [|split].
  - intros c Hc. rewrite Ek. apply R1. apply elem_of_list_fmap. eauto.
  - intros e He. by apply LL, A1.
  - intros r l Hn Hs. rewrite Ek in Hs.
    assert (c_out s1 = c_out s) as Eo.
    { clear -H1. revert s new H1. induction (ce_r <$> cs) as [|r rs IH]; intros s new H; cbn [create_unknown] in H.
      - by injection H as <- _.
      - destruct (em_contains _ r); [by eapply IH|]. cbn [c_create] in H.
        apply bind_ok in H as (s3 & H3 & H). apply bind_ok in H as ([s4 qs] & H4 & H). injection H as <- _.
        rewrite (IH _ _ H4). by apply on_map_ok in H3 as (m & _ & _ & -> & _). }
    rewrite Eo in Eq. rewrite <- (app_nil_r (announced (c_out s))) in Eq at 1. apply app_inv_head in Eq as <-.
    cbn [app] in G. apply G in Hs as [Hs|Hin]; [congruence|].
    destruct (N1 _ _ Hin) as (Hr & Hl & Hl1). apply elem_of_list_fmap in Hr as (c & -> & Hc).
    split; [eauto|]. split; [done|]. split; [by apply LL|]. apply M5. by eapply F4.
Qed.

(** ** Destruction *)
Record shrinks (s s' : cst) (L : list nat) : Prop := {
  sh_imp : cx_importing (c_k s) = true → cx_importing (c_k s') = true;
  sh_out : c_out s' = c_out s;
  sh_alive : ∀ e, lives s' e → lives s e;
  sh_edge : ∀ e p, cw_edge (c_w s') !! e = Some p → cw_edge (c_w s) !! e = Some p;
  sh_asset : ∀ e p, cw_asset (c_w s') !! e = Some p → cw_asset (c_w s) !! e = Some p;
  sh_known : ∀ r l, known s' r = Some l → known s r = Some l;
  sh_death : ∀ e, lives s e → ¬ lives s' e →
    e ∈ L ∨ (∃ r, lost s s' r e) ∨ ∃ a b, joins s e a b ∧ (¬ lives s' a ∨ ¬ lives s' b)
}.
Lemma shrinks_refl s : shrinks s s [].
Proof. split; try done. Qed.
Lemma shrinks_trans s1 s2 s3 L1 L2 : shrinks s1 s2 L1 → shrinks s2 s3 L2 → shrinks s1 s3 (L1 ++ L2).
Proof.
  intros A B. split.
  - intros Hi. by apply (sh_imp _ _ _ B), (sh_imp _ _ _ A).
  - by rewrite (sh_out _ _ _ B), (sh_out _ _ _ A).
  - intros e He. by apply (sh_alive _ _ _ A), (sh_alive _ _ _ B).
  - intros e p He. by apply (sh_edge _ _ _ A), (sh_edge _ _ _ B).
  - intros e p He. by apply (sh_asset _ _ _ A), (sh_asset _ _ _ B).
  - intros r l H. by apply (sh_known _ _ _ A), (sh_known _ _ _ B).
  - intros e H1 H3. destruct (decide (e ∈ cw_alive (c_w s2))) as [H2|H2].
    + destruct (sh_death _ _ _ B e H2 H3) as [H|[(r & Hr & Hn)|(a & b & Hj & Hd)]].
      * left. apply elem_of_app. by right.
      * right. left. exists r. split; [by apply (sh_known _ _ _ A)|done].
      * right. right. exists a, b. split; [by apply (sh_edge _ _ _ A)|done].
    + destruct (sh_death _ _ _ A e H1 H2) as [H|[(r & Hr & Hn)|(a & b & Hj & Hd)]].
      * left. apply elem_of_app. by left.
      * right. left. exists r. split; [done|]. destruct (known s3 r) as [l|] eqn:E; [|done].
        apply (sh_known _ _ _ B) in E. congruence.
      * right. right. exists a, b. split; [done|]. destruct Hd as [Hd|Hd]; [left|right]; intros Hx; apply Hd; by apply (sh_alive _ _ _ B).
Qed.
Lemma shrinks_close s s' L : shrinks s s' L → (∀ e, e ∈ L → ∃ r, lost s s' r e) → shrinks s s' [].
Proof.
  intros A HL. destruct A as [A1 A2 A3 A4 A5 A6 A7]. split; try done.
  intros e H1 H2. destruct (A7 e H1 H2) as [H|H]; [|by right]. right. left. by apply HL.
Qed.
Lemma destroy_one_shrinks s e s' : cx_importing (c_k s) = true → destroy_one s e = Ok s' →
  shrinks s s' [e] ∧ cx_map (c_k s') = cx_map (c_k s) ∧ ¬ lives s' e.
Proof.
  intros Hi H. destruct (pstep_keep false true s (LKill e) s' eq_refl Hi H) as [Em Eo].
  apply destroy_one_ok in H as (Ew & _ & _ & _ & _ & _ & _ & Ei & _).
  split; [|split; [done|]].
  - split.
    + by rewrite Ei.
    + done.
    + intros x. unfold lives. rewrite Ew. cbn. by intros [? _]%elem_of_difference.
    + intros x p. rewrite Ew. cbn. by intros [_ ?]%lookup_delete_Some.
    + intros x p. rewrite Ew. cbn. by intros [_ ?]%lookup_delete_Some.
    + intros r l. unfold known. by rewrite Em.
    + intros x Hx Hn. left. apply elem_of_list_singleton. unfold lives in *. rewrite Ew in Hn. cbn in Hn.
      destruct (decide (x = e)) as [|Hne]; [done|]. exfalso. apply Hn, elem_of_difference. split; [done|]. by intros ?%elem_of_singleton.
  - unfold lives. rewrite Ew. cbn. intros [_ Hn]%elem_of_difference. by apply Hn, elem_of_singleton.
Qed.
Lemma destroy_list_shrinks es s s' : cx_importing (c_k s) = true → destroy_list s es = Ok s' →
  shrinks s s' es ∧ cx_map (c_k s') = cx_map (c_k s).
Proof.
  revert s. induction es as [|e es IH]; intros s Hi H; cbn [destroy_list] in H.
  - injection H as <-. split; [apply shrinks_refl|done].
  - apply bind_ok in H as (s1 & H1 & H2). apply destroy_one_shrinks in H1 as (S1 & E1 & _); [|done].
    destruct (IH _ (sh_imp _ _ _ S1 Hi) H2) as [S2 E2]. split; [|by rewrite E2].
    change (e :: es) with ([e] ++ es). by eapply shrinks_trans.
Qed.
Lemma c_destroy_shrinks s e s' : cx_importing (c_k s) = true → c_destroy s e = Ok s' →
  shrinks s s' [e] ∧ cx_map (c_k s') = cx_map (c_k s) ∧ ¬ lives s' e.
Proof.
  intros Hi H. unfold c_destroy in H. apply bind_ok in H as (u0 & _ & H). apply bind_ok in H as (s1 & H1 & H).
  assert (∃ es, (∀ x, x ∈ es → ∃ a b, joins s x a b ∧ (a = e ∨ b = e)) ∧ shrinks s s1 es ∧ cx_map (c_k s1) = cx_map (c_k s))
    as (es & He & S1 & E1).
  { destruct (bool_decide_reflect (e ∈ cw_node (c_w s))) as [Hn|Hn].
    - apply destroy_list_shrinks in H1 as [S1 E1]; [|done]. eexists. split; [|by split].
      intros x Hx. by apply edges_at_iff in Hx.
    - injection H1 as <-. exists []. split; [intros x ?%elem_of_nil; done|]. split; [apply shrinks_refl|done]. }
  apply destroy_one_shrinks in H as (S2 & E2 & D); [|by apply (sh_imp _ _ _ S1)].
  split; [|split; [by rewrite E2|done]].
  pose proof (shrinks_trans _ _ _ _ _ S1 S2) as [A1 A2 A3 A4 A5 A6 A7]. split; try done.
  intros x Hx Hn. destruct (A7 x Hx Hn) as [[Hin|Hin]%elem_of_app|Hd]; [|by left|by right].
  right. right. destruct (He _ Hin) as (a & b & Hj & Hab). exists a, b. split; [done|].
  destruct Hab as [->| ->]; [by left|by right].
Qed.
Lemma erase_shrinks s r s1 : bij (cx_map (c_k s)) → on_map s (λ m, em_erase m r) = Ok s1 →
  shrinks s s1 [] ∧ bij (cx_map (c_k s1)) ∧ c_w s1 = c_w s ∧
  (∀ r' l, known s1 r' = Some l ↔ known s r' = Some l ∧ r' ≠ r).
Proof.
  intros B (m & Hm & Ew & Eo & Ek)%on_map_ok. pose proof (em_erase_bij _ _ _ B Hm) as B'.
  apply em_erase_ok in Hm as (l & Hl & ->).
  assert (∀ r' l, known s1 r' = Some l ↔ known s r' = Some l ∧ r' ≠ r) as K.
  { intros r' l'. unfold known. rewrite Ek. cbn. rewrite lookup_delete_Some. naive_solver. }
  split; [|split; [by rewrite Ek|done]]. split.
  - by rewrite Ek.
  - done.
  - intros e. unfold lives. by rewrite Ew.
  - by rewrite Ew.
  - by rewrite Ew.
  - intros r' l' H. by apply K in H as [? _].
  - intros e He Hn. unfold lives in Hn. by rewrite Ew in Hn.
Qed.
Lemma destroy_entries_ok es s s' : cx_importing (c_k s) = true → bij (cx_map (c_k s)) → destroy_entries s es = Ok s' →
  shrinks s s' [] ∧ bij (cx_map (c_k s')) ∧
  (∀ r l, known s' r = Some l ↔ known s r = Some l ∧ r ∉ es.*2) ∧
  (∀ r, r ∈ es.*2 → ∃ l, known s r = Some l ∧ ¬ lives s' l).
Proof.
  revert s. induction es as [|[i r] es IH]; intros s Hi B H; cbn [destroy_entries] in H.
  - injection H as <-. split; [apply shrinks_refl|]. split; [done|]. split.
    + intros r l. rewrite elem_of_nil. naive_solver.
    + intros r ?%elem_of_nil. done.
  - apply bind_ok in H as (l & Hl & H). apply bind_ok in H as (s1 & H1 & H). apply bind_ok in H as (s2 & H2 & H).
    assert (known s r = Some l) as Hk.
    { unfold em_at, opt_res in Hl. unfold known. destruct (em_map _ !! r); [by injection Hl as <-|done]. }
    apply erase_shrinks in H1 as (S1 & B1 & W1 & K1); [|done].
    assert (shrinks s1 s2 [l] ∧ cx_map (c_k s2) = cx_map (c_k s1) ∧ ¬ lives s2 l) as (S2 & E2 & D2).
    { unfold valid in H2. destruct (bool_decide_reflect (l ∈ cw_alive (c_w s1))) as [Hv|Hv].
      - apply c_destroy_shrinks; [|done]. by apply (sh_imp _ _ _ S1).
      - injection H2 as <-. split; [|done]. destruct (shrinks_refl s1). split; try done. }
    assert (bij (cx_map (c_k s2))) as B2 by by rewrite E2.
    destruct (IH _ (sh_imp _ _ _ S2 (sh_imp _ _ _ S1 Hi)) B2 H) as (S3 & B3 & K3 & D3).
    assert (∀ r' l', known s' r' = Some l' ↔ known s r' = Some l' ∧ r' ∉ r :: es.*2) as K.
    { intros r' l'. rewrite K3. unfold known at 1. rewrite E2. fold (known s1 r'). rewrite K1, elem_of_cons. naive_solver. }
    split; [|split; [done|split; [done|]]].
    + pose proof (shrinks_trans _ _ _ _ _ (shrinks_trans _ _ _ _ _ S1 S2) S3) as S. cbn in S.
      apply (shrinks_close _ _ _ S). intros e ->%elem_of_list_singleton. exists r. split; [done|].
      destruct (known s' r) as [l'|] eqn:E; [|done]. apply K in E as [_ E]. exfalso. apply E, elem_of_list_here.
    + intros r' [->|Hin]%elem_of_cons.
      * exists l. split; [done|]. intros Hx. by apply D2, (sh_alive _ _ _ S3).
      * destruct (D3 _ Hin) as (l' & Hk' & Hd). exists l'. split; [|done].
        unfold known in Hk'. rewrite E2 in Hk'. fold (known s1 r') in Hk'. by apply K1 in Hk' as [? _].
Qed.
Lemma destroy_remote_ok r s s' : cx_importing (c_k s) = true → bij (cx_map (c_k s)) → destroy_remote s r = Ok s' →
  shrinks s s' [] ∧ bij (cx_map (c_k s')) ∧ known s' r = None ∧
  (∀ r' l', lost s s' r' l' → ¬ lives s' l' ∧ (r' = r ∨ listed s [r] r')) ∧
  (∀ l es i r', known s r = Some l → lives s l → asset_of s l = Some es → (i, r') ∈ es → ∃ l', lost s s' r' l').
Proof.
  intros Hi B H. unfold destroy_remote in H. fold (known s r) in H.
  destruct (known s r) as [l|] eqn:Hk.
  2:{ injection H as <-. split; [apply shrinks_refl|]. split; [done|]. split; [done|]. split; [|done].
      intros r' l' [H1 H2]. congruence. }
  apply bind_ok in H as (s1 & H1 & H). apply erase_shrinks in H1 as (S1 & B1 & W1 & K1); [|done].
  unfold valid in H. destruct (bool_decide_reflect (l ∈ cw_alive (c_w s1))) as [Hv|Hv]; cbn [negb] in H.
  2:{ injection H as <-. split; [done|]. split; [done|]. split; [|split].
      - destruct (known s1 r) as [l'|] eqn:E; [|done]. by apply K1 in E as [_ ?].
      - intros r' l' [H1 H2]. destruct (decide (r' = r)) as [->|Hn].
        + split; [|by left]. by assert (l' = l) as -> by congruence.
        + assert (known s1 r' = Some l') by (by apply K1). congruence.
      - intros l' es i r' [= <-] Hl. unfold lives in Hl. by rewrite W1 in Hv. }
  apply bind_ok in H as (s2 & H2 & H).
  assert (∃ es, shrinks s1 s2 [] ∧ bij (cx_map (c_k s2)) ∧
    (∀ r' l', known s2 r' = Some l' ↔ known s1 r' = Some l' ∧ r' ∉ es.*2) ∧
    (∀ r', r' ∈ es.*2 → ∃ l', known s1 r' = Some l' ∧ ¬ lives s2 l') ∧
    (asset_of s l = Some es ∨ asset_of s l = None ∧ es = [])) as (es & S2 & B2 & K2 & D2 & Ha).
  { rewrite W1 in H2. unfold asset_of. destruct (cw_asset (c_w s) !! l) as [es|] eqn:Ea.
    - exists es. destruct (destroy_entries_ok _ _ _ (sh_imp _ _ _ S1 Hi) B1 H2) as (? & ? & ? & ?). eauto 10.
    - injection H2 as <-. exists []. split; [apply shrinks_refl|]. split; [done|]. split; [|split; [|by right]].
      + intros. rewrite elem_of_nil. naive_solver.
      + intros r' ?%elem_of_nil. done. }
  apply c_destroy_shrinks in H as (S3 & E3 & D3); [|by apply (sh_imp _ _ _ S2), (sh_imp _ _ _ S1)].
  assert (∀ r' l', known s' r' = Some l' ↔ known s r' = Some l' ∧ r' ≠ r ∧ r' ∉ es.*2) as K.
  { intros r' l'. unfold known at 1. rewrite E3. fold (known s2 r'). rewrite K2, K1. naive_solver. }
  assert (known s' r = None) as Kr.
  { destruct (known s' r) as [l'|] eqn:E; [|done]. by apply K in E as (_ & ? & _). }
  split; [|split; [by rewrite E3|split; [done|split]]].
  - pose proof (shrinks_trans _ _ _ _ _ (shrinks_trans _ _ _ _ _ S1 S2) S3) as S. cbn in S.
    apply (shrinks_close _ _ _ S). intros e ->%elem_of_list_singleton. by exists r.
  - intros r' l' [L1 L2]. destruct (decide (r' = r)) as [->|Hn].
    { split; [|by left]. by assert (l' = l) as -> by congruence. }
    destruct (decide (r' ∈ es.*2)) as [Hin|Hin].
    + destruct (D2 _ Hin) as (l2 & Hk2 & Hd). apply K1 in Hk2 as [Hk2 _]. assert (l2 = l') as -> by congruence. split.
      * intros Hx. by apply Hd, (sh_alive _ _ _ S3).
      * right. apply elem_of_list_fmap in Hin as ([i r2] & -> & Hin). exists r, l, es, i.
        split; [apply elem_of_list_here|]. split; [done|]. split; [|done].
        destruct Ha as [Ha|[_ ->]]; [done|]. by apply elem_of_nil in Hin.
    + assert (known s' r' = Some l') by (by apply K). congruence.
  - intros l2 es2 i r' [= <-] Hl Has Hin. destruct Ha as [Ha|[Ha _]]; [|congruence].
    assert (es2 = es) as -> by congruence.
    assert (r' ∈ es.*2) as Hin2 by (apply elem_of_list_fmap; by exists (i, r')).
    destruct (D2 _ Hin2) as (l2 & Hk2 & _). exists l2. apply K1 in Hk2 as [Hk2 _]. split; [done|].
    destruct (known s' r') as [l3|] eqn:E; [|done]. by apply K in E as (_ & _ & ?).
Qed.
Lemma destroy_remotes_ok rs s s' : cx_importing (c_k s) = true → bij (cx_map (c_k s)) → destroy_remotes s rs = Ok s' →
  shrinks s s' [] ∧ (∀ r, r ∈ rs → known s' r = None) ∧
  (∀ r l, lost s s' r l → ¬ lives s' l ∧ (r ∈ rs ∨ listed s rs r)).
Proof.
  revert s. induction rs as [|r rs IH]; intros s Hi B H; cbn [destroy_remotes] in H.
  - injection H as <-. split; [apply shrinks_refl|]. split; [intros r ?%elem_of_nil; done|].
    intros r l [H1 H2]. congruence.
  - apply bind_ok in H as (s1 & H1 & H2).
    destruct (destroy_remote_ok _ _ _ Hi B H1) as (S1 & B1 & K1 & L1 & _).
    destruct (IH _ (sh_imp _ _ _ S1 Hi) B1 H2) as (S2 & K2 & L2).
    split; [exact (shrinks_trans _ _ _ _ _ S1 S2)|]. split.
    + intros r' [->|Hin]%elem_of_cons; [|by apply K2].
      destruct (known s' r) as [l|] eqn:E; [|done]. apply (sh_known _ _ _ S2) in E. congruence.
    + intros r' l' [Ha Hb]. destruct (known s1 r') as [l2|] eqn:E.
      * pose proof (sh_known _ _ _ S1 _ _ E) as E'. assert (l2 = l') as -> by congruence.
        destruct (L2 r' l' (conj E Hb)) as [Hd Hw]. split; [done|]. destruct Hw as [Hw|(r0 & l0 & es & i & R0 & R1 & R2 & R3)].
        -- left. by apply elem_of_list_further.
        -- right. exists r0, l0, es, i. split; [by apply elem_of_list_further|].
           split; [by apply (sh_known _ _ _ S1)|]. split; [by apply (sh_asset _ _ _ S1)|done].
      * destruct (L1 r' l' (conj Ha E)) as [Hd Hw]. split; [intros Hx; by apply Hd, (sh_alive _ _ _ S2)|].
        destruct Hw as [->|(r0 & l0 & es & i & R0 & R1)]; [left; apply elem_of_list_here|right].
        exists r0, l0, es, i. split; [|done]. apply elem_of_list_singleton in R0 as ->. apply elem_of_list_here.
Qed.
Lemma notify_exited_eq rs s : notify_exited s rs = CSt (c_w s) (c_k s) (c_out s ++ (OExited <$> omap (known s) rs)).
Proof.
  unfold notify_exited. revert s. induction rs as [|r rs IH]; intros s; cbn [foldl omap list_omap fmap list_fmap].
  - rewrite app_nil_r. by destruct s.
  - rewrite IH. fold (known s r). destruct (known s r) as [l|] eqn:E; cbn [emit c_w c_k c_out]; [|done].
    by rewrite <- app_assoc.
Qed.
Lemma recv_destroy_ok s rs s' : bij (cx_map (c_k s)) → recv_destroy s rs = Ok s' →
  (∀ r, r ∈ rs → known s' r = None) ∧
  (∀ r l, known s' r = Some l → known s r = Some l) ∧
  (∀ r l, lost s s' r l → ¬ lives s' l ∧ (r ∈ rs ∨ listed s rs r)) ∧
  (∀ e, lives s' e → lives s e) ∧
  (∀ e, lives s e → ¬ lives s' e → (∃ r, lost s s' r e) ∨ ∃ a b, joins s e a b ∧ (¬ lives s' a ∨ ¬ lives s' b)) ∧
  c_out s' = c_out s ++ (OExited <$> omap (known s) rs).
Proof.
  intros B H. unfold recv_destroy in H. apply bind_ok in H as (s1 & H1 & H). injection H as <-.
  rewrite notify_exited_eq in H1.
  match type of H1 with destroy_remotes ?x _ = _ => set (s0 := x) in H1 end.
  destruct (destroy_remotes_ok rs s0 _ eq_refl B H1) as (S & K & L).
  split; [exact K|]. split; [exact (sh_known _ _ _ S)|]. split; [exact L|]. split; [exact (sh_alive _ _ _ S)|]. split.
  - intros e H2 H3. destruct (sh_death _ _ _ S e H2 H3) as [?%elem_of_nil|H]; [done|exact H].
  - exact (sh_out _ _ _ S).
Qed.
Lemma recv_destroy_asset s r rs s' l es i r' : bij (cx_map (c_k s)) → recv_destroy s (r :: rs) = Ok s' →
  known s r = Some l → lives s l → asset_of s l = Some es → (i, r') ∈ es → ∃ l', lost s s' r' l'.
Proof.
  intros B H Hk Hl Ha Hin. unfold recv_destroy in H. apply bind_ok in H as (s1 & H1 & H). injection H as <-.
  rewrite notify_exited_eq in H1.
  match type of H1 with destroy_remotes ?x _ = _ => set (s0 := x) in H1 end. cbn [destroy_remotes] in H1. apply bind_ok in H1 as (s2 & H2 & H1).
  destruct (destroy_remote_ok r s0 _ eq_refl B H2) as (S2 & B2 & _ & _ & A2).
  destruct (A2 l es i r' Hk Hl Ha Hin) as (l' & L1 & L2).
  destruct (destroy_remotes_ok rs _ _ (sh_imp _ _ _ S2 eq_refl) B2 H1) as (S1 & _).
  exists l'. split; [exact L1|]. change (known s1 r' = None).
  destruct (known s1 r') as [x|] eqn:E; [|done]. apply (sh_known _ _ _ S1) in E. congruence.
Qed.

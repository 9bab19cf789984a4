(** Refinement: one step of the packed island solver ([island_step]) is one
    step of the reference solver of [RowSpec], constraint by constraint. *)
From Verif Require Import Outcome RowModel JointModel RowSpec JointLens RowSim.

Section pack.
Context {N : num}.
Notation T := (nt N).
Variables (dt : nt N) (g : nat → nat → geo N) (bodies : nat → body N).
Implicit Types (cs : consmap N) (pcs : gmap nat (pcache N)) (c : con N).

Notation elems := (elems_of dt g bodies).

(** ** Preparation. *)
Lemma add_rows_ok (es : list (elem N)) rows p k cur :
  length rows + length es ≤ 16 → length p < 8 →
  add_rows es (PCache rows (p ++ [k]) cur) = Ok (PCache (rows ++ es) (p ++ [k + length es]) cur).
Proof.
  revert rows k. induction es as [|e es IH]; intros rows k Hr Hp; cbn [add_rows].
  { by rewrite app_nil_r, Nat.add_0_r. }
  cbn [length] in Hr. unfold add_row. cbn [pc_rows pc_per pc_cur].
  rewrite app_length. cbn [length].
  rewrite !bool_decide_eq_true_2 by (unfold max_rows, max_constraints; lia).
  cbn [assert_ require_ mbind res_bind].
  replace (length p + 1 - 1) with (length p) by lia.
  assert (alter S (length p) (p ++ [k]) = p ++ [S k]) as ->.
  { clear. induction p as [|x p IH]; [done|]. simpl. by f_equal. }
  rewrite IH by (rewrite ?app_length; simpl; lia).
  rewrite <- app_assoc. simpl. by rewrite Nat.add_succ_r.
Qed.

Definition prepped (key : nat * nat) c : con N :=
  match prepared dt g bodies key c with
  | Ok (cfg, _) => Con cfg (c_imp c) (c_a c) (c_b c)
  | _ => c
  end.
Definition cons_in (ks : list nat) cs (e : nat) : list (nat * con N) :=
  omap (λ t, c ← cs !! (e, t); Some (t, c)) ks.
Notation elems_at e x := (elems (e, fst x) (snd x)).
Definition rows_in ks cs e : list (elem N) := concat (map (λ x, elems_at e x) (cons_in ks cs e)).
Definition per_in ks cs e : list nat := map (λ x, length (elems_at e x)) (cons_in ks cs e).

Lemma cons_in_cons k ks cs e :
  cons_in (k :: ks) cs e
  = match cs !! (e, k) with Some c => (k, c) :: cons_in ks cs e | None => cons_in ks cs e end.
Proof. unfold cons_in. simpl. by destruct (cs !! (e, k)). Qed.
Lemma cons_in_app a b cs e : cons_in (a ++ b) cs e = cons_in a cs e ++ cons_in b cs e.
Proof. apply omap_app. Qed.
Lemma cons_in_ext ks cs cs' e :
  (∀ k, k ∈ ks → cs' !! (e, k) = cs !! (e, k)) → cons_in ks cs' e = cons_in ks cs e.
Proof.
  induction ks as [|k ks IH]; intros H; [done|].
  rewrite !cons_in_cons, H by left. rewrite IH; [done|]. intros. apply H. by right.
Qed.

Lemma invoke_prepare_ok e k c rows p cur :
  (∃ r, prepared dt g bodies (e, k) c = Ok r) →
  length rows + length (elems (e, k) c) ≤ 16 → length p < 8 →
  invoke_prepare c (PCache rows p cur) dt (g e k) bodies
  = Ok (prepped (e, k) c,
        PCache (rows ++ elems (e, k) c) (p ++ [length (elems (e, k) c)]) cur).
Proof.
  unfold elems_of, prepped. intros [[cfg es] H] Hr Hp. rewrite H in *.
  unfold prepared in H. cbn [fst snd] in H. unfold invoke_prepare.
  destruct (prepare _ _ _ _ _ _) as [[cfg' qs]| | |] eqn:E; try done.
  injection H as -> <-. cbn [mbind res_bind]. unfold add_constraint. cbn [pc_rows pc_per pc_cur].
  rewrite add_rows_ok by done. done.
Qed.

Lemma prepare_kinds_ok ks e cs rows p cur :
  NoDup ks →
  (∀ k c, k ∈ ks → cs !! (e, k) = Some c → ∃ r, prepared dt g bodies (e, k) c = Ok r) →
  length rows + length (rows_in ks cs e) ≤ 16 → length p + length (cons_in ks cs e) ≤ 8 →
  ∃ cs', prepare_kinds ks e cs (PCache rows p cur) dt g bodies
         = Ok (cs', PCache (rows ++ rows_in ks cs e) (p ++ per_in ks cs e) cur)
    ∧ (∀ k, k ∈ ks → cs' !! (e, k) = prepped (e, k) <$> cs !! (e, k))
    ∧ (∀ e' k, e' ≠ e ∨ k ∉ ks → cs' !! (e', k) = cs !! (e', k)).
Proof.
  revert cs rows p. induction ks as [|k ks IH]; intros cs rows p Hnd Hp Hr Hc.
  { exists cs. cbn [prepare_kinds]. unfold rows_in, per_in. simpl. rewrite !app_nil_r.
    split; [done|]. split; [|done]. intros k Hk. by apply elem_of_nil in Hk. }
  apply NoDup_cons in Hnd as [Hk Hnd]. cbn [prepare_kinds].
  unfold rows_in, per_in in *. rewrite cons_in_cons in *.
  destruct (cs !! (e, k)) as [c|] eqn:E.
  - cbn [map concat fst snd length] in *. rewrite app_length in Hr.
    rewrite invoke_prepare_ok; [|by eapply Hp; [left|]|lia|lia].
    cbn [mbind res_bind].
    assert (Hext : cons_in ks (<[(e, k):=prepped (e, k) c]> cs) e = cons_in ks cs e).
    { apply cons_in_ext. intros k' Hk'. rewrite lookup_insert_ne; [done|]. intros [= ->]. done. }
    destruct (IH (<[(e, k):=prepped (e, k) c]> cs) (rows ++ elems (e, k) c)
                 (p ++ [length (elems (e, k) c)])) as (cs' & E' & H1 & H2).
    + done.
    + intros k' c' Hk' Hl. rewrite lookup_insert_ne in Hl by (intros [= ->]; done).
      eapply Hp; [by right|done].
    + rewrite Hext, app_length. lia.
    + rewrite Hext, app_length. simpl. lia.
    + exists cs'. rewrite Hext in E'. rewrite E', <- !app_assoc. split; [done|]. split.
      * intros k' Hk'. apply elem_of_cons in Hk' as [->|Hk'].
        -- rewrite H2 by (by right). rewrite lookup_insert, E. done.
        -- rewrite H1 by done. rewrite lookup_insert_ne by (intros [= ->]; done). done.
      * intros e' k' Hne. rewrite not_elem_of_cons in Hne. rewrite H2 by tauto.
        rewrite lookup_insert_ne; [done|]. intros [= -> ->]. tauto.
  - cbn [mbind res_bind].
    destruct (IH cs rows p) as (cs' & E' & H1 & H2).
    + done.
    + intros k' c' Hk'. apply Hp. by right.
    + done.
    + done.
    + exists cs'. split; [done|]. split.
      * intros k' Hk'. apply elem_of_cons in Hk' as [->|Hk']; [|by apply H1].
        rewrite H2 by (by right). by rewrite E.
      * intros e' k' Hne. rewrite not_elem_of_cons in Hne. apply H2. tauto.
Qed.

Notation kinds := (seq 0 num_kinds).
Definition full cs e (n : nat) : pcache N := PCache (rows_in kinds cs e) (per_in kinds cs e) n.

Definition prep_ok (es : list nat) cs : Prop :=
  (∀ e k c, e ∈ es → k ∈ kinds → cs !! (e, k) = Some c →
            ∃ r, prepared dt g bodies (e, k) c = Ok r)
  ∧ (∀ e, e ∈ es → entity_fits dt g bodies cs e).

Lemma prepare_all_ok es cs pcs :
  NoDup es → prep_ok es cs →
  ∃ cs' pcs', prepare_all es cs pcs dt g bodies = Ok (cs', pcs')
    ∧ (∀ e, e ∈ es → pcs' !! e = Some (full cs e 0))
    ∧ (∀ e, e ∉ es → pcs' !! e = pcs !! e)
    ∧ (∀ e k, e ∈ es → k ∈ kinds → cs' !! (e, k) = prepped (e, k) <$> cs !! (e, k))
    ∧ (∀ e k, e ∉ es ∨ k ∉ kinds → cs' !! (e, k) = cs !! (e, k)).
Proof.
  revert cs pcs. induction es as [|e es IH]; intros cs pcs Hnd [Hp Hf].
  { exists cs, pcs. split; [done|]. split; [by intros ? ?%elem_of_nil|]. split; [done|].
    split; [by intros ? ? ?%elem_of_nil|done]. }
  apply NoDup_cons in Hnd as [He Hnd]. cbn [prepare_all]. unfold prepare_entity, empty_pcache.
  destruct (Hf e) as [Hf1 Hf2]; [left|].
  destruct (prepare_kinds_ok kinds e cs [] [] 0) as (cs1 & E1 & H1 & H2).
  { apply NoDup_ListNoDup, seq_NoDup. }
  { intros k c Hk. apply Hp; [left|done]. }
  { exact Hf2. }
  { exact Hf1. }
  rewrite E1. cbn [mbind res_bind app].
  assert (Hsame : ∀ e' k, e' ∈ es → cs1 !! (e', k) = cs !! (e', k)).
  { intros e' k He'. apply H2. left. intros ->. done. }
  destruct (IH cs1 (<[e:=full cs e 0]> pcs)) as (cs' & pcs' & E & G1 & G2 & G3 & G4).
  - done.
  - split.
    + intros e' k c He' Hk. rewrite Hsame by done. apply Hp; [by right|done].
    + intros e' He'. unfold entity_fits.
      assert (entity_cons cs1 e' = entity_cons cs e') as ->.
      { apply cons_in_ext. intros. by apply Hsame. }
      apply Hf. by right.
  - exists cs', pcs'. split; [exact E|]. split; [|split; [|split]].
    + intros e' He'. apply elem_of_cons in He' as [->|He'].
      * rewrite G2 by done. by rewrite lookup_insert.
      * rewrite G1 by done. unfold full, rows_in, per_in.
        rewrite (cons_in_ext kinds cs cs1) by (intros; by apply Hsame). done.
    + intros e' [Hne He']%not_elem_of_cons. rewrite G2 by done. by rewrite lookup_insert_ne.
    + intros e' k He' Hk. apply elem_of_cons in He' as [->|He'].
      * rewrite G4 by (by left). by apply H1.
      * rewrite G3 by done. by rewrite Hsame.
    + intros e' k Hn. rewrite not_elem_of_cons in Hn.
      destruct (decide (e' ∈ es)) as [He'|He'].
      * destruct (decide (k ∈ kinds)); [tauto|]. rewrite G4 by tauto. apply H2. tauto.
      * rewrite G4 by tauto. apply H2. destruct (decide (e' = e)); tauto.
Qed.

(** ** Packing. *)
Notation block := ((nat * nat) * list (elem N))%type.
Definition block_at cs (t e : nat) : option block :=
  c ← cs !! (e, t); Some ((e, t), elems (e, t) c).
Definition blocks_of cs (es : list nat) (t : nat) : list block := omap (block_at cs t) es.
Definition flat (bs : list block) : owned N := concat (map (λ b, map (pair (fst b)) (snd b)) bs).
Notation els l := (map snd l).

Lemma flat_app a b : flat (a ++ b) = flat a ++ flat b.
Proof. unfold flat. by rewrite map_app, concat_app. Qed.
Lemma els_flat bs : els (flat bs) = concat (map snd bs).
Proof.
  induction bs as [|[key l] bs IH]; [done|]. unfold flat. cbn [map concat fst snd].
  rewrite map_app. fold (flat bs). rewrite IH. f_equal.
  rewrite map_map. simpl. apply map_id.
Qed.

Lemma island_rows_flat es cs :
  island_rows es dt g bodies cs = flat (concat (map (blocks_of cs es) kinds)).
Proof.
  unfold island_rows. induction kinds as [|t ts IH]; [done|].
  cbn [map concat]. rewrite flat_app, IH. f_equal.
  clear. induction es as [|e es IH]; [done|]. cbn [map concat]. rewrite IH.
  unfold blocks_of. cbn [omap list_omap]. unfold block_at at 2.
  destruct (cs !! (e, t)) as [c|]; [|done]. done.
Qed.

(** Reading one constraint's rows out of its entity's cache. *)
Lemma consume_rows_ok (f : nat * con N → list (elem N)) A x B :
  length (A ++ x :: B) ≤ 8 →
  let pc := PCache (concat (map f (A ++ x :: B))) (map (λ x, length (f x)) (A ++ x :: B)) (length A) in
  current_num_rows pc = Ok (length (f x))
  ∧ consume_rows pc = Ok (f x, PCache (pc_rows pc) (pc_per pc) (S (length A))).
Proof.
  intros H8 pc.
  assert (current_num_rows pc = Ok (length (f x))) as Hn.
  { unfold current_num_rows, pc. cbn [pc_rows pc_per pc_cur]. rewrite map_length.
    rewrite app_length in *. cbn [length] in *.
    rewrite !bool_decide_eq_true_2 by (unfold max_constraints; lia).
    cbn [assert_ require_ mbind res_bind].
    rewrite list_lookup_fmap, lookup_app_r, Nat.sub_diag by lia. done. }
  split; [done|]. unfold consume_rows. rewrite Hn. cbn [mbind res_bind].
  unfold pc. cbn [pc_rows pc_per pc_cur].
  assert (Hs : sum_list (take (length A) (map (λ x, length (f x)) (A ++ x :: B)))
               = length (concat (map f A))).
  { rewrite map_app, take_app_alt by (by rewrite map_length). clear.
    induction A as [|a A IH]; [done|]. simpl. rewrite app_length, IH. done. }
  rewrite Hs, !map_app, concat_app, !app_length. cbn [map concat]. rewrite app_length.
  rewrite bool_decide_eq_true_2 by lia. cbn [require_ mbind res_bind].
  rewrite drop_app, take_app. done.
Qed.

Lemma kinds_split t : t < num_kinds → kinds = seq 0 t ++ t :: seq (S t) (num_kinds - S t).
Proof.
  intros Ht. replace num_kinds with (t + (1 + (num_kinds - S t))) at 1 by lia.
  by rewrite seq_app.
Qed.

Definition present cs t (e : nat) : Prop := is_Some (cs !! (e, t)).
Global Instance present_dec cs t e : Decision (present cs t e).
Proof. unfold present. apply _. Defined.

Definition upto cs (t e : nat) : nat := length (cons_in (seq 0 t) cs e).
Lemma upto_S cs t e : upto cs (S t) e = upto cs t e + (if decide (present cs t e) then 1 else 0).
Proof.
  unfold upto. rewrite seq_S, cons_in_app, app_length, cons_in_cons. simpl.
  destruct (decide (present cs t e)) as [[c Hp]|Hp].
  - by rewrite Hp.
  - destruct (cs !! (e, t)) eqn:E; [|done]. destruct Hp. by exists c.
Qed.

Lemma insert_rows_ok t es cs0 cs pcs bs nums ents :
  t < num_kinds → NoDup es →
  (∀ e, e ∈ es → entity_fits dt g bodies cs0 e) →
  (∀ e, e ∈ es → is_Some (cs !! (e, t)) ↔ is_Some (cs0 !! (e, t))) →
  (∀ e, e ∈ es → pcs !! e = Some (full cs0 e (upto cs0 t e))) →
  ∃ pcs', insert_rows t es cs pcs (packed (els (flat bs)) nums) ents
    = Ok (pcs', packed (els (flat (bs ++ blocks_of cs0 es t)))
                  (nums ++ map (λ b, length (snd b)) (blocks_of cs0 es t)),
          ents ++ filter (present cs0 t) es)
    ∧ (∀ e, e ∈ es → pcs' !! e = Some (full cs0 e (upto cs0 (S t) e)))
    ∧ (∀ e, e ∉ es → pcs' !! e = pcs !! e).
Proof.
  intros Ht. revert pcs bs nums ents.
  induction es as [|e es IH]; intros pcs bs nums ents Hnd Hf Hcs Hpc.
  { exists pcs. cbn [insert_rows blocks_of omap list_omap]. rewrite filter_nil. simpl.
    rewrite !app_nil_r. split; [done|]. split; [by intros ? ?%elem_of_nil|done]. }
  apply NoDup_cons in Hnd as [He Hnd]. cbn [insert_rows].
  unfold blocks_of. cbn [omap list_omap]. fold (blocks_of cs0 es t).
  pose proof (Hcs e ltac:(left)) as Hce. unfold block_at.
  destruct (cs0 !! (e, t)) as [c|] eqn:E0.
  - destruct Hce as [_ Hce]. destruct (Hce (mk_is_Some _ _ eq_refl)) as [c' Ec]. rewrite Ec.
    rewrite (Hpc e) by left. cbn [opt_res mbind res_bind].
    destruct (Hf e ltac:(left)) as [Hf1 _]. change (entity_cons cs0 e) with (cons_in kinds cs0 e) in Hf1.
    assert (Hsplit : cons_in kinds cs0 e
       = cons_in (seq 0 t) cs0 e ++ (t, c) :: cons_in (seq (S t) (num_kinds - S t)) cs0 e).
    { rewrite (kinds_split t) at 1 by done. by rewrite cons_in_app, cons_in_cons, E0. }
    rewrite Hsplit in Hf1.
    pose proof (consume_rows_ok (λ x, elems_at e x) _ _ _ Hf1) as [Hn Hc].
    rewrite <- Hsplit in Hn, Hc. cbn [fst snd] in Hn, Hc.
    change (PCache _ _ _) with (full cs0 e (upto cs0 t e)) in Hn.
    change (consume_rows _) with (consume_rows (full cs0 e (upto cs0 t e))) in Hc.
    rewrite Hn. cbn [mbind res_bind]. rewrite Hc. cbn [mbind res_bind pc_rows pc_per option_bind].
    unfold packed at 1. cbn [k_rows k_num k_flags k_fric k_roll k_spin].
    change (Cache _ _ _ _ _ _)
      with (packed (els (flat bs)) (nums ++ [length (elems (e, t) c)])).
    rewrite foldl_packed.
    assert (els (flat bs) ++ elems (e, t) c = els (flat (bs ++ [((e, t), elems (e, t) c)]))) as ->.
    { rewrite flat_app, map_app. f_equal. rewrite els_flat. simpl. by rewrite app_nil_r. }
    destruct (IH (<[e:=PCache (rows_in kinds cs0 e) (per_in kinds cs0 e) (S (upto cs0 t e))]> pcs)
                 (bs ++ [((e, t), elems (e, t) c)])
                 (nums ++ [length (elems (e, t) c)]) (ents ++ [e])) as (pcs' & E & G1 & G2).
    + done.
    + intros. apply Hf. by right.
    + intros. apply Hcs. by right.
    + intros e' He'. rewrite lookup_insert_ne by (by intros ->). apply Hpc. by right.
    + exists pcs'. split.
      { etrans; [exact E|]. rewrite <- !app_assoc. cbn [app map snd].
        by rewrite filter_cons_True by (unfold present; by rewrite E0). }
      split.
      * intros e' He'. apply elem_of_cons in He' as [->|He'].
        -- rewrite G2 by done. rewrite lookup_insert. unfold full. rewrite upto_S.
           rewrite decide_True by (unfold present; by rewrite E0). by rewrite Nat.add_1_r.
        -- by apply G1.
      * intros e' [Hne He']%not_elem_of_cons. rewrite G2 by done. by rewrite lookup_insert_ne.
  - assert (cs !! (e, t) = None) as ->.
    { destruct (cs !! (e, t)) eqn:E; [|done]. destruct Hce as [Hce _].
      destruct (Hce (mk_is_Some _ _ eq_refl)). done. }
    cbn [mbind option_bind].
    destruct (IH pcs bs nums ents) as (pcs' & E & G1 & G2).
    + done.
    + intros. apply Hf. by right.
    + intros. apply Hcs. by right.
    + intros. apply Hpc. by right.
    + exists pcs'. rewrite E.
      rewrite filter_cons_False by (unfold present; rewrite E0; by intros [? ?]).
      split; [done|]. split.
      * intros e' He'. apply elem_of_cons in He' as [->|He']; [|by apply G1].
        rewrite G2 by done. rewrite (Hpc e) by left. rewrite upto_S.
        rewrite decide_False by (unfold present; rewrite E0; by intros [? ?]).
        by rewrite Nat.add_0_r.
      * intros e' [Hne He']%not_elem_of_cons. by apply G2.
Qed.

Lemma insert_kinds_ok n t es cs0 cs pcs bs nums ents :
  t + n = num_kinds → NoDup es →
  (∀ e, e ∈ es → entity_fits dt g bodies cs0 e) →
  (∀ e k, e ∈ es → k ∈ kinds → is_Some (cs !! (e, k)) ↔ is_Some (cs0 !! (e, k))) →
  (∀ e, e ∈ es → pcs !! e = Some (full cs0 e (upto cs0 t e))) →
  ∃ pcs', insert_kinds (seq t n) es cs pcs (packed (els (flat bs)) nums) ents
    = Ok (pcs', packed (els (flat (bs ++ concat (map (blocks_of cs0 es) (seq t n)))))
                  (nums ++ map (λ b, length (snd b)) (concat (map (blocks_of cs0 es) (seq t n)))),
          ents ++ map (λ t, filter (present cs0 t) es) (seq t n)).
Proof.
  revert t pcs bs nums ents. induction n as [|n IH]; intros t pcs bs nums ents Ht Hnd Hf Hcs Hpc.
  { exists pcs. simpl. by rewrite !app_nil_r. }
  cbn [seq insert_kinds].
  destruct (insert_rows_ok t es cs0 cs pcs bs nums []) as (pcs1 & E1 & G1 & _).
  - lia.
  - done.
  - done.
  - intros e He. apply Hcs; [done|]. apply elem_of_seq. lia.
  - done.
  - rewrite E1. cbn [mbind res_bind app].
    destruct (IH (S t) pcs1 (bs ++ blocks_of cs0 es t)
      (nums ++ map (λ b, length (snd b)) (blocks_of cs0 es t))
      (ents ++ [filter (present cs0 t) es])) as (pcs2 & E2); [lia|done|done|done|done|].
    exists pcs2. rewrite E2, <- !app_assoc. cbn [map concat app]. rewrite map_app. done.
Qed.

Lemma pack_rows_ok es cs0 cs pcs s :
  NoDup es →
  (∀ e, e ∈ es → entity_fits dt g bodies cs0 e) →
  (∀ e k, e ∈ es → k ∈ kinds → is_Some (cs !! (e, k)) ↔ is_Some (cs0 !! (e, k))) →
  (∀ e, e ∈ es → pcs !! e = Some (full cs0 e 0)) →
  let bs := concat (map (blocks_of cs0 es) kinds) in
  pack_rows es cs pcs s
  = Ok (packed (els (flat bs)) (map (λ b, length (snd b)) bs),
        map (λ t, filter (present cs0 t) es) kinds, own_warm (flat bs) s).
Proof.
  intros Hnd Hf Hcs Hpc bs. unfold pack_rows.
  change (@empty_cache N) with (packed (els (flat [])) []).
  destruct (insert_kinds_ok num_kinds 0 es cs0 cs pcs [] [] []) as (pcs' & E); try done.
  rewrite E. cbn [mbind res_bind app]. fold bs. rewrite warm_cache_sim. done.
Qed.

(** ** The iterations keep every row with its constraint. *)
Definition shape (l : owned N) : list ((nat * nat) * flags) := map (λ x, (fst x, flags_of (snd x))) l.
Lemma shape_zip l : shape l = zip (map fst l) (map flags_of (els l)).
Proof. unfold shape. induction l as [|x l IH]; [done|]. simpl. by rewrite IH. Qed.
Lemma sweep_shape f (l : owned N) s :
  (∀ e s, flags_of (fst (f e s)) = flags_of e) → shape (fst (sweep f l s)) = shape l.
Proof. intros Hf. rewrite !shape_zip, sweep_keys. by rewrite (sweep_same flags_of f). Qed.
Lemma own_iteration_shape (l : owned N) s : shape (fst (own_iteration l s)) = shape l.
Proof.
  unfold own_iteration.
  pose proof (sweep_shape step_row l s step_row_flags) as H1.
  destruct (sweep step_row l s) as [l1 s1].
  pose proof (sweep_shape step_fric l1 s1 step_fric_flags) as H2.
  destruct (sweep step_fric l1 s1) as [l2 s2].
  pose proof (sweep_shape step_roll l2 s2 step_roll_flags) as H3.
  destruct (sweep step_roll l2 s2) as [l3 s3].
  pose proof (sweep_shape step_spin l3 s3 step_spin_flags) as H4.
  cbn [fst] in *. congruence.
Qed.
Lemma own_iterate_shape n (l : owned N) s : shape (fst (own_iterate n l s)) = shape l.
Proof.
  revert l s. induction n as [|n IH]; intros l s; [done|]. cbn [own_iterate].
  pose proof (own_iteration_shape l s) as H. destruct (own_iteration l s) as [l' s'].
  rewrite IH. done.
Qed.

Lemma cons_inv {A} (x y : A) l k : x :: l = y :: k → x = y ∧ l = k.
Proof. by intros [= -> ->]. Qed.

Definition alike (b b' : block) : Prop :=
  fst b = fst b' ∧ map flags_of (snd b') = map flags_of (snd b).

Lemma shape_blocks bs (l : owned N) :
  shape l = shape (flat bs) → ∃ bs', l = flat bs' ∧ Forall2 alike bs bs'.
Proof.
  revert l. induction bs as [|[key b] bs IH]; intros l H.
  { exists []. apply map_eq_nil in H as ->. by split. }
  unfold flat in H. cbn [map concat fst snd] in H. fold (flat bs) in H.
  unfold shape in H. rewrite map_app in H.
  apply map_eq_app in H as (l1 & l2 & -> & H1 & H2).
  apply IH in H2 as (bs' & -> & H2).
  exists ((key, map snd l1) :: bs'). split.
  - unfold flat. cbn [map concat fst snd]. f_equal. clear - H1.
    revert b H1. induction l1 as [|[k e] l1 IH]; intros [|x b] H1; try done.
    cbn [map fst snd] in *. apply cons_inv in H1 as [[-> _]%pair_inv H1].
    f_equal. by eapply IH.
  - constructor; [|done]. split; [done|]. cbn [snd]. clear - H1.
    revert b H1. induction l1 as [|[k e] l1 IH]; intros [|x b] H1; try done.
    cbn [map fst snd] in *. apply cons_inv in H1 as [[_ H0]%pair_inv H1].
    f_equal; [done|]. by apply IH.
Qed.

Lemma elem_values_flags (e e' : elem N) :
  flags_of e = flags_of e' → length (elem_values e) = length (elem_values e').
Proof.
  destruct e as [? [] [] []], e' as [? [] [] []]; intros H; first [done | by cbv in H].
Qed.
Lemma values_flags (a b : list (elem N)) :
  map flags_of a = map flags_of b →
  length (concat (map elem_values a)) = length (concat (map elem_values b)).
Proof.
  revert b. induction a as [|x a IH]; intros [|y b] H; try done.
  cbn [map concat] in *. apply cons_inv in H as [H0 H]. rewrite !app_length.
  rewrite (elem_values_flags x y), (IH b); done.
Qed.

(** ** Reading back. *)
Definition vals_of (b : block) : list T := concat (map elem_values (snd b)).

Lemma own_values_flat bs key b :
  NoDup (map fst bs) → (key, b) ∈ bs → own_values (flat bs) key = vals_of (key, b).
Proof.
  intros Hnd Hin. unfold own_values.
  assert (∀ bs : list block, key ∉ map fst bs → filter (λ x, fst x = key) (flat bs) = []) as Hno.
  { clear. intros bs. induction bs as [|[k l] bs IH]; intros Hk; [done|].
    cbn [map] in Hk. apply not_elem_of_cons in Hk as [Hne Hk].
    unfold flat. cbn [map concat fst snd]. rewrite filter_app. fold (flat bs). rewrite (IH Hk), app_nil_r.
    cbn [fst] in Hne. clear - Hne. induction l as [|e l IH]; [done|]. cbn [map].
    rewrite filter_cons_False by (cbn [fst]; congruence). done. }
  induction bs as [|[k l] bs IH]; [by apply elem_of_nil in Hin|].
  cbn [map fst] in Hnd. apply NoDup_cons in Hnd as [Hk Hnd].
  unfold flat. cbn [map concat fst snd]. rewrite filter_app, map_app, concat_app. fold (flat bs).
  apply elem_of_cons in Hin as [[= <- <-]|Hin].
  - rewrite (Hno bs) by done. simpl. rewrite app_nil_r. unfold vals_of. cbn [snd]. f_equal.
    clear. induction b as [|e b IH]; [done|]. cbn [map].
    rewrite filter_cons_True by done. cbn [map snd]. by rewrite IH.
  - rewrite (IH Hnd Hin).
    assert (k ≠ key) as Hne.
    { intros ->. apply Hk. apply elem_of_list_fmap. by exists (key, b). }
    replace (filter (λ x, x.1 = key) (map (pair k) l)) with (@nil ((nat*nat) * elem N)); [done|].
    clear - Hne. induction l as [|e l IH]; [done|]. cbn [map].
    rewrite filter_cons_False by done. done.
Qed.

Definition at_blocks (u : cursor) (k : cache N) (bs : list block) : Prop :=
  tail_at u k (concat (map snd bs))
  ∧ drop (u_con u) (k_num k) = map (λ b, length (snd b)) bs.

(** What [store_applied_impulses] makes of one constraint. *)
Definition stored c (b : block) c' : Prop :=
  ∃ imps, store_impulses (c_cfg c) (c_imp c) (vals_of b) = Ok imps
    ∧ c' = Con (c_cfg c) imps (c_a c) (c_b c).

Lemma update_impulse_ok t bs rest k cs u :
  NoDup (map fst bs) → at_blocks u k (bs ++ rest) →
  (∀ b, b ∈ bs → snd (fst b) = t ∧ ∃ c c', cs !! fst b = Some c ∧ stored c b c') →
  ∃ cs' u', update_impulse t (map (λ b, fst (fst b)) bs) k cs u = Ok (cs', u')
    ∧ at_blocks u' k rest
    ∧ (∀ b, b ∈ bs → ∃ c c', cs !! fst b = Some c ∧ stored c b c' ∧ cs' !! fst b = Some c')
    ∧ (∀ key, key ∉ map fst bs → cs' !! key = cs !! key).
Proof.
  revert cs u. induction bs as [|b bs IH]; intros cs u Hnd Hu Hb.
  { exists cs, u. split; [done|]. split; [done|]. split; [by intros ? ?%elem_of_nil|done]. }
  cbn [map] in Hnd. apply NoDup_cons in Hnd as [Hk Hnd].
  destruct (Hb b ltac:(left)) as (Ht & c & c' & Hc & imps & Hs & ->).
  destruct b as [[e t'] l]. cbn [fst snd] in *. subst t'.
  cbn [map update_impulse fst]. rewrite Hc. cbn [opt_res mbind res_bind].
  destruct Hu as [Ht Hn]. cbn [app map snd concat] in Ht, Hn.
  apply drop_lookup in Hn as [Ln Hn]. rewrite Ln. cbn [opt_res mbind res_bind].
  apply gather_sim in Ht as (u1 & E1 & Ht & Hcon). rewrite E1. cbn [mbind res_bind].
  unfold vals_of in Hs. cbn [snd] in Hs. rewrite Hs. cbn [mbind res_bind].
  set (c1 := Con (c_cfg c) imps (c_a c) (c_b c)).
  destruct (IH (<[(e, t):=c1]> cs)
     (Cursor (S (u_con u1)) (u_row u1) (u_fric u1) (u_roll u1) (u_spin u1)))
     as (cs' & u' & E & Hu' & G1 & G2).
  - done.
  - split; [exact Ht|]. cbn [u_con]. by rewrite Hcon.
  - intros b Hin. destruct (Hb b ltac:(by right)) as (H1 & c2 & c3 & H2 & H3).
    split; [done|]. exists c2, c3. split; [|done]. rewrite lookup_insert_ne; [done|].
    intros Heq. apply Hk. apply elem_of_list_fmap. exists b. by split.
  - exists cs', u'. split; [exact E|]. split; [done|]. split.
    + intros b Hin. apply elem_of_cons in Hin as [->|Hin].
      * exists c, c1. cbn [fst]. split; [done|]. split; [by exists imps|].
        rewrite G2 by done. by rewrite lookup_insert.
      * destruct (G1 b Hin) as (c2 & c3 & H2 & H3 & H4). exists c2, c3. split; [|done].
        rewrite lookup_insert_ne in H2; [done|].
        intros Heq. apply Hk. apply elem_of_list_fmap. exists b. by split.
    + intros key [Hne Hin]%not_elem_of_cons. rewrite G2 by done. by rewrite lookup_insert_ne.
Qed.

Lemma elem_concat {A} (x : A) ls : x ∈ concat ls ↔ ∃ l, l ∈ ls ∧ x ∈ l.
Proof.
  rewrite elem_of_list_In, in_concat. split; intros (l & H1 & H2); exists l;
    rewrite ?elem_of_list_In in *; done.
Qed.

Lemma update_kinds_ok t (bss : list (list block)) k cs u :
  NoDup (map fst (concat bss)) → at_blocks u k (concat bss) →
  (∀ i bs, bss !! i = Some bs → ∀ b, b ∈ bs →
     snd (fst b) = t + i ∧ ∃ c c', cs !! fst b = Some c ∧ stored c b c') →
  ∃ cs', update_kinds t (map (map (λ b, fst (fst b))) bss) k cs u = Ok cs'
    ∧ (∀ b, b ∈ concat bss → ∃ c c', cs !! fst b = Some c ∧ stored c b c' ∧ cs' !! fst b = Some c')
    ∧ (∀ key, key ∉ map fst (concat bss) → cs' !! key = cs !! key).
Proof.
  revert t cs u. induction bss as [|bs bss IH]; intros t cs u Hnd Hu Hb.
  { exists cs. split; [done|]. split; [by intros ? ?%elem_of_nil|done]. }
  cbn [concat] in *. rewrite map_app in Hnd. apply NoDup_app in Hnd as (Hnd1 & Hdis & Hnd2).
  destruct (update_impulse_ok t bs (concat bss) k cs u) as (cs1 & u1 & E1 & Hu1 & G1 & G2).
  - done.
  - done.
  - intros b Hin. destruct (Hb 0 bs eq_refl b Hin) as [H1 H2]. split; [lia|done].
  - cbn [map update_kinds]. rewrite E1. cbn [mbind res_bind].
    destruct (IH (S t) cs1 u1) as (cs2 & E2 & G3 & G4).
    + done.
    + done.
    + intros i bs' Hi b Hin. destruct (Hb (S i) bs' Hi b Hin) as (H1 & c & c' & H2 & H3).
      split; [lia|]. exists c, c'. split; [|done]. rewrite G2; [done|].
      intros Hin'. eapply Hdis; [done|]. apply elem_of_list_fmap. exists b. split; [done|].
      apply elem_concat. exists bs'. split; [|done]. by eapply elem_of_list_lookup_2.
    + exists cs2. split; [exact E2|]. split.
      * intros b [Hin|Hin]%elem_of_app.
        -- destruct (G1 b Hin) as (c & c' & H1 & H2 & H3). exists c, c'. split; [done|].
           split; [done|]. rewrite G4; [done|]. apply Hdis.
           apply elem_of_list_fmap. by exists b.
        -- destruct (G3 b Hin) as (c & c' & H1 & H2 & H3). exists c, c'. split; [|done].
           rewrite G2 in H1; [done|]. intros Hin'. eapply Hdis; [done|].
           apply elem_of_list_fmap. by exists b.
      * intros key Hk. rewrite map_app, not_elem_of_app in Hk. destruct Hk.
        rewrite G4 by done. by apply G2.
Qed.

(** ** One step. *)
Lemma forall2_concat {A B} (P : A → B → Prop) (ls : list (list A)) (k : list B) :
  Forall2 P (concat ls) k → ∃ ks, k = concat ks ∧ Forall2 (Forall2 P) ls ks.
Proof.
  revert k. induction ls as [|l ls IH]; intros k H.
  { exists []. simpl in H. apply Forall2_nil_inv_l in H as ->. by split. }
  cbn [concat] in H. apply Forall2_app_inv_l in H as (k1 & k2 & H1 & H2 & ->).
  destruct (IH k2 H2) as (ks & -> & H3). exists (k1 :: ks). split; [done|]. by constructor.
Qed.

Lemma blocks_ents cs es t : map (λ b : block, fst (fst b)) (blocks_of cs es t) = filter (present cs t) es.
Proof.
  induction es as [|e es IH]; [done|]. unfold blocks_of. cbn [omap list_omap].
  fold (blocks_of cs es t). unfold block_at. destruct (cs !! (e, t)) as [c|] eqn:E.
  - rewrite filter_cons_True by (unfold present; by rewrite E). cbn. by rewrite IH.
  - rewrite filter_cons_False by (unfold present; rewrite E; by intros [? ?]). cbn. done.
Qed.
Lemma elem_blocks cs es t b :
  b ∈ blocks_of cs es t ↔ ∃ e c, e ∈ es ∧ cs !! (e, t) = Some c ∧ b = ((e, t), elems (e, t) c).
Proof.
  unfold blocks_of. rewrite elem_of_list_omap. unfold block_at. split.
  - intros (e & He & H). destruct (cs !! (e, t)) as [c|] eqn:E; [|done].
    injection H as <-. by exists e, c.
  - intros (e & c & He & E & ->). exists e. split; [done|]. by rewrite E.
Qed.
Lemma elem_all_blocks cs es ts b :
  b ∈ concat (map (blocks_of cs es) ts)
  ↔ ∃ e t c, e ∈ es ∧ t ∈ ts ∧ cs !! (e, t) = Some c ∧ b = ((e, t), elems (e, t) c).
Proof.
  rewrite elem_concat. split.
  - intros (l & (t & -> & Ht)%elem_of_list_fmap & (e & c & H1 & H2 & H3)%elem_blocks).
    by exists e, t, c.
  - intros (e & t & c & H1 & H2 & H3 & H4). exists (blocks_of cs es t). split.
    + apply elem_of_list_fmap. by exists t.
    + apply elem_blocks. by exists e, c.
Qed.
Lemma blocks_nodup cs es ts :
  NoDup es → NoDup ts → NoDup (map fst (concat (map (blocks_of cs es) ts))).
Proof.
  intros Hes Hts. induction ts as [|t ts IH]; [constructor|].
  apply NoDup_cons in Hts as [Ht Hts]. cbn [map concat]. rewrite map_app.
  apply NoDup_app. split; [|split].
  - assert (NoDup (map fst (map fst (blocks_of cs es t)))) as H.
    { rewrite map_map, blocks_ents. by apply NoDup_filter. }
    by eapply NoDup_fmap_1.
  - intros key (b & -> & (e & c & _ & _ & ->)%elem_blocks)%elem_of_list_fmap Hin.
    cbn [fst] in Hin. apply elem_of_list_fmap in Hin as (b & Heq & Hin).
    apply elem_all_blocks in Hin as (e' & t' & c' & _ & Ht' & _ & ->).
    cbn [fst] in Heq. injection Heq as -> ->. done.
  - by apply IH.
Qed.

Lemma alike_map bs bs' :
  Forall2 alike bs bs' → map fst bs' = map fst bs
  ∧ map (λ b, length (snd b)) bs' = map (λ b, length (snd b)) bs.
Proof.
  induction 1 as [|b b' bs bs' [H1 H2] _ [IH1 IH2]]; [done|].
  cbn [map]. rewrite IH1, IH2, H1. split; [done|]. f_equal.
  rewrite <- (map_length flags_of (snd b')), H2. apply map_length.
Qed.

Lemma finish_values A B (q : req N) : elem_values (finish_row A B q) = req_values q.
Proof. done. Qed.
Lemma finish_row_values A B (qs : list (req N)) :
  concat (map elem_values (map (finish_row A B) qs)) = row_values qs.
Proof. unfold row_values. by rewrite map_map. Qed.

Lemma island_step_ok es n cs s :
  island_fits es dt g bodies cs →
  let L := island_rows es dt g bodies cs in
  let R := own_iterate n L (own_warm L s) in
  ∃ cs' k, island_step es n dt g bodies cs s = Ok (cs', k, snd R)
    ∧ k_rows k = map (λ x, e_row (snd x)) (fst R)
    ∧ (∀ e t c, e ∈ es → cs !! (e, t) = Some c →
        ∃ cfg qs imps,
          prepare (c_cfg c) (c_imp c) dt (g e t) (bodies (c_a c)) (bodies (c_b c)) = Ok (cfg, qs)
          ∧ cs' !! (e, t) = Some (Con cfg imps (c_a c) (c_b c))
          ∧ length imps = slots cfg
          ∧ length (own_values (fst R) (e, t)) = length (row_values qs)
          ∧ map (fld imps) (slots_of cfg true) = own_values (fst R) (e, t)
          ∧ (∀ i, i ∉ slots_of cfg true → fld imps i = fld (c_imp c) i))
    ∧ (∀ e t, e ∉ es → cs' !! (e, t) = cs !! (e, t)).
Proof.
  intros (Hnd & Hwf & Hf) L R.
  assert (Hkinds : ∀ e t c, e ∈ es → cs !! (e, t) = Some c → t ∈ kinds).
  { intros e t c He Hc. apply elem_of_seq. destruct (Hwf e t c He Hc). lia. }
  assert (Hprep : prep_ok es cs).
  { split; [|done]. intros e t c He _ Hc. by destruct (Hwf e t c He Hc) as (_ & _ & _ & ? & _). }
  unfold island_step.
  destruct (prepare_all_ok es cs ∅ Hnd Hprep) as (cs1 & pcs & E1 & Hpc & _ & Hc1 & Hc2).
  rewrite E1. cbn [mbind res_bind].
  set (bss := map (blocks_of cs es) kinds). set (bs := concat bss).
  assert (HL : L = flat bs) by apply island_rows_flat.
  rewrite (pack_rows_ok es cs cs1 pcs s Hnd Hf); [| |done].
  2: { intros e t He Ht. rewrite Hc1 by done. by rewrite fmap_is_Some. }
  cbn [mbind res_bind]. fold bss. fold bs. rewrite <- HL.
  rewrite iterate_cache_sim. cbn [mbind res_bind]. fold R.
  pose proof (own_iterate_shape n L (own_warm L s)) as Hsh. fold R in Hsh. rewrite HL in Hsh.
  apply shape_blocks in Hsh as (bs' & HR & Hal).
  apply forall2_concat in Hal as (bss' & -> & Hal2).
  assert (Hal : Forall2 alike bs (concat bss')).
  { clear - Hal2. unfold bs. induction Hal2; [constructor|]. cbn [concat]. by apply Forall2_app. }
  destruct (alike_map _ _ Hal) as [Hkeys Hlens].
  assert (HndK : NoDup (map fst bs)).
  { apply blocks_nodup; [done|]. apply NoDup_ListNoDup, seq_NoDup. }
  (* what each block of the result stores *)
  assert (Hblk : ∀ i b, concat bss' !! i = Some b →
    ∃ e t c cfg qs imps, e ∈ es ∧ cs !! (e, t) = Some c ∧ fst b = (e, t)
      ∧ prepare (c_cfg c) (c_imp c) dt (g e t) (bodies (c_a c)) (bodies (c_b c)) = Ok (cfg, qs)
      ∧ cs1 !! (e, t) = Some (Con cfg (c_imp c) (c_a c) (c_b c))
      ∧ length (vals_of b) = length (row_values qs)
      ∧ store_impulses cfg (c_imp c) (vals_of b) = Ok imps
      ∧ length imps = slots cfg
      ∧ map (fld imps) (slots_of cfg true) = vals_of b
      ∧ (∀ i, i ∉ slots_of cfg true → fld imps i = fld (c_imp c) i)).
  { intros i b Hi. destruct (Forall2_lookup_r _ _ _ _ _ Hal Hi) as (b0 & Hi0 & Hk & Hfl).
    apply elem_of_list_lookup_2, elem_all_blocks in Hi0 as (e & t & c & He & Ht & Hc & ->).
    cbn [fst snd] in Hk, Hfl. apply values_flags in Hfl.
    destruct (Hwf e t c He Hc) as (_ & Hkind & Hslots & [[cfg els] Hp] & Hspin).
    unfold elems_of in Hfl. rewrite Hp in Hfl.
    pose proof Hp as Hp'. unfold prepared in Hp'. cbn [fst snd] in Hp', Hspin.
    destruct (prepare _ _ _ _ _ _) as [[cfg' qs]| | |] eqn:E; try done.
    injection Hp' as -> <-. rewrite finish_row_values in Hfl.
    destruct (store_prepared _ _ _ _ _ _ _ _ (vals_of b) E Hspin Hslots Hfl)
      as (imps & S1 & S2 & S3 & S4).
    exists e, t, c, cfg, qs, imps. do 3 (split; [done|]). split; [done|]. split; [|done].
    rewrite Hc1 by (try done; by eapply Hkinds). rewrite Hc. cbn. unfold prepped. by rewrite Hp. }
  assert (Hents : map (λ t, filter (present cs t) es) kinds = map (map (λ b, fst (fst b))) bss').
  { unfold bss in Hal2. clear - Hal2. revert bss' Hal2. generalize kinds as ts.
    induction ts as [|t ts IH]; intros bss' H; cbn [map] in H.
    - by apply Forall2_nil_inv_l in H as ->.
    - apply Forall2_cons_inv_l in H as (b' & bss'' & H1 & H2 & ->). cbn [map].
      rewrite (IH bss'' H2). f_equal. rewrite <- blocks_ents.
      apply alike_map in H1 as [H1 _].
      rewrite <- (map_map fst fst), <- H1, map_map. done. }
  rewrite Hents. unfold assign_impulses.
  destruct (update_kinds_ok 0 bss' (packed (els (fst R)) (map (λ b : block, length (snd b)) bs))
              cs1 (Cursor 0 0 0 0 0)) as (cs' & E & G1 & G2).
  { by rewrite Hkeys. }
  { split.
    - rewrite HR, els_flat. done.
    - cbn [u_con packed k_num]. by rewrite Hlens. }
  { intros i bl Hi b Hb.
    assert (b ∈ concat bss') as Hin.
    { apply elem_concat. exists bl. split; [by eapply elem_of_list_lookup_2|done]. }
    apply elem_of_list_lookup in Hin as [j Hj].
    destruct (Hblk j b Hj) as (e & t & c & cfg & qs & imps & He & Hc & Hk & _ & Hcs1 & _ & Hst & _).
    rewrite Hk. split.
    - destruct (Forall2_lookup_r _ _ _ _ _ Hal2 Hi) as (bl0 & Hi0 & Hbl).
      unfold bss in Hi0. rewrite list_lookup_fmap in Hi0.
      destruct (kinds !! i) as [t'|] eqn:Et; [|done]. injection Hi0 as <-.
      apply lookup_seq in Et as [-> _].
      apply elem_of_list_lookup in Hb as [m Hm].
      destruct (Forall2_lookup_r _ _ _ _ _ Hbl Hm) as (b0 & Hm0 & Hk0 & _).
      apply elem_of_list_lookup_2, elem_blocks in Hm0 as (e' & c' & _ & _ & ->).
      rewrite Hk in Hk0. cbn [fst] in Hk0. by injection Hk0 as -> <-.
    - exists (Con cfg (c_imp c) (c_a c) (c_b c)), (Con cfg imps (c_a c) (c_b c)).
      split; [done|]. by exists imps. }
  rewrite E. cbn [mbind res_bind].
  exists cs', (packed (els (fst R)) (map (λ b : block, length (snd b)) bs)).
  split; [done|]. split; [cbn; by rewrite map_map|]. split.
  - intros e t c He Hc.
    assert (∃ b, b ∈ concat bss' ∧ fst b = (e, t)) as (b & Hin & Hk).
    { assert ((e, t) ∈ map fst (concat bss')) as Hin.
      { rewrite Hkeys. apply elem_of_list_fmap. exists ((e, t), elems (e, t) c). split; [done|].
        apply elem_all_blocks. exists e, t, c. split; [done|]. split; [by eapply Hkinds|done]. }
      apply elem_of_list_fmap in Hin as (b & Heq & Hin). by exists b. }
    destruct (G1 b Hin) as (c1 & c2 & H1 & (imps' & Hst' & ->) & H3).
    apply elem_of_list_lookup in Hin as [j Hj]. pose proof Hj as Hin.
    apply elem_of_list_lookup_2 in Hin.
    destruct (Hblk j b Hj) as (e' & t' & c0 & cfg & qs & imps & _ & Hc0 & Hk' & Hp & Hcs1 & Hlen & Hst & F1 & F2 & F3).
    rewrite Hk in Hk'. injection Hk' as <- <-. rewrite Hc in Hc0. injection Hc0 as <-.
    rewrite Hk, Hcs1 in H1. injection H1 as <-. cbn [c_cfg c_imp c_a c_b] in *.
    rewrite Hst in Hst'. injection Hst' as <-.
    assert (own_values (fst R) (e, t) = vals_of b) as Hov.
    { rewrite HR. destruct b as [key b]. cbn [fst] in Hk. subst key.
      apply own_values_flat; [by rewrite Hkeys|done]. }
    exists cfg, qs, imps. rewrite Hov. rewrite <- Hk at 1. done.
  - intros e t He. rewrite G2.
    + apply Hc2. by left.
    + rewrite Hkeys. intros (b & Hb & Hin)%elem_of_list_fmap.
      apply elem_all_blocks in Hin as (e' & t' & c' & He' & _ & _ & ->).
      cbn [fst] in Hb. injection Hb as -> ->. done.
Qed.

End pack.

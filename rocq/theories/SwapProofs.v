(** Proofs about exchanging the bodies of results and manifolds. *)
From Verif Require Import Outcome BoxModel PointModel PointSpec PointProofs PointReach SwapModel.

Section swap.
Context {V N Sc F : Type} (neg : N → N) (Hneg : ∀ x, neg (neg x) = x).
Notation point := (rpoint V (rest N Sc F)).
Notation entry := (nat * (point * nat))%type.
Notation astate := (gmap nat (list entry)).
Notation mreg := (@mreg V N Sc F).

Lemma swap_point_invol (p : point) : swap_point neg (swap_point neg p) = p.
Proof. destruct p as [a b [n d [] fa fb l]]; unfold swap_point; simpl; by rewrite Hneg. Qed.
Lemma swap_result_invol (r : cresult V (rest N Sc F)) : swap_result neg (swap_result neg r) = r.
Proof.
  destruct r as [n l]. unfold swap_result. simpl. f_equal. apply list_eq. intros i. rewrite !list_lookup_imap.
  destruct (l !! i) as [p|]; [|done]. simpl. f_equal. case_decide; [apply swap_point_invol|done].
Qed.

Definition swap_entry (e : entry) : entry := (e.1, (swap_point neg e.2.1, e.2.2)).
Lemma swap_entry_ids (l : list entry) : (swap_entry <$> l).*1 = l.*1.
Proof. induction l as [|e l IH]; simpl; [done|]. f_equal. exact IH. Qed.

Lemma swap_walk body m todo : ∀ (A : astate) f pre fuel (s : mreg),
  repr (<[m := pre ++ todo]> A) f (mr_reg s) → length todo ≤ fuel →
  ∃ s', for_each fuel (λ s e, c ← opt_res (pr_cp (mr_reg s) !! e); Ok (cp_next c)) (swap_visit neg body) s (fst <$> head todo) = Ok s' ∧
    repr (<[m := pre ++ (swap_entry <$> todo)]> A) f (mr_reg s') ∧ mr_body s' = mr_body s ∧
    (∀ x, mr_con s' !! x = if decide (x ∈ todo.*1) then (λ _, body) <$> mr_con s !! x else mr_con s !! x).
Proof.
  induction todo as [|[x d] todo IH]; intros A f pre fuel s HR Hf.
  { exists s. split_and!; [by destruct fuel|done|done|]. intros x. rewrite decide_False; [done|]. apply not_elem_of_nil. }
  destruct fuel as [|fuel]; [simpl in Hf; lia|]. simpl in Hf.
  assert (Hget : pr_cp (mr_reg s) !! x = Some (CP m (fst <$> head todo) d.1 d.2)).
  { rewrite (rp_get _ _ _ HR m (pre ++ (x, d) :: todo) (length pre) x d ltac:(apply lookup_insert)) by (by rewrite lookup_app_r, Nat.sub_diag).
    rewrite lookup_app_r by lia. replace (S (length pre) - length pre) with 1 by lia. simpl. by destruct todo. }
  change (fst <$> head ((x, d) :: todo)) with (Some x). cbn [for_each]. rewrite Hget. cbn [opt_res mbind res_bind cp_next].
  unfold swap_visit at 2. rewrite Hget. cbn [opt_res mbind res_bind cp_next cp_parent cp_pt cp_life].
  pose proof (repr_set _ f (mr_reg s) m (pre ++ (x, d) :: todo) x d (swap_point neg d.1, d.2) (fst <$> head todo) HR ltac:(apply lookup_insert) Hget) as HR1.
  specialize (HR1 ltac:(rewrite fmap_app; apply elem_of_app; right; by left)).
  rewrite insert_insert in HR1.
  pose proof (rp_nodup _ _ _ HR m _ ltac:(apply lookup_insert)) as Hnd. rewrite fmap_app in Hnd. simpl in Hnd.
  assert (Hx1 : x ∉ pre.*1). { intros Hx. apply NoDup_app in Hnd as (_ & H & _). apply (H x Hx). by left. }
  assert (Hx2 : x ∉ todo.*1). { by apply NoDup_app in Hnd as (_ & _ & [H _]%NoDup_cons). }
  assert (Hupd : upd_id x (swap_point neg d.1, d.2) (pre ++ (x, d) :: todo) = (pre ++ [swap_entry (x, d)]) ++ todo).
  { rewrite upd_id_app. rewrite upd_id_notin by done. rewrite <- (assoc_L (++)). f_equal. simpl. rewrite decide_True by done. unfold swap_entry. simpl. f_equal. by apply upd_id_notin. }
  rewrite Hupd in HR1. cbn [fst snd] in HR1.
  match goal with |- context [for_each fuel _ _ ?s1 _] => destruct (IH A f _ fuel s1 HR1 ltac:(lia)) as (s' & Hfe & HR' & Hb & Hc) end.
  exists s'. split_and!; [done| |done|].
  - rewrite <- (assoc_L (++)) in HR'. done.
  - intros y. rewrite Hc. cbn [mr_con]. simpl. destruct (decide (y = x)) as [->|Hyx].
    + rewrite decide_False by done. rewrite decide_True by (by left). by rewrite lookup_alter.
    + rewrite lookup_alter_ne by done.
      destruct (decide (y ∈ todo.*1)); [rewrite decide_True by (by right)|rewrite decide_False by (rewrite not_elem_of_cons; done)]; done.
Qed.

Lemma swap_manifold_spec (A : astate) f m l a b (s : mreg) :
  repr A f (mr_reg s) → A !! m = Some l → mr_body s !! m = Some (a, b) →
  ∃ s', swap_manifold neg s m = Ok s' ∧ repr (<[m := swap_entry <$> l]> A) f (mr_reg s') ∧
    mr_body s' = <[m := (b, a)]> (mr_body s) ∧
    (∀ x, mr_con s' !! x = if decide (x ∈ l.*1) then (λ _, (b, a)) <$> mr_con s !! x else mr_con s !! x).
Proof.
  intros HR Hl Hb. unfold swap_manifold. rewrite (rp_man _ _ _ HR), Hl, Hb. cbn [fmap option_fmap option_map opt_res mbind res_bind].
  destruct (swap_walk (b, a) m l A f [] (size (pr_cp (mr_reg s))) (MReg (mr_reg s) (<[m := (b, a)]> (mr_body s)) (mr_con s))) as (s' & Hs & HR' & Hb' & Hc').
  { simpl. by rewrite insert_id. }
  { by eapply repr_cp_size. }
  exists s'. split_and!; done.
Qed.
End swap.

(** ** Matching under exchange *)
Section matching.
Context {V N Sc F : Type}.
Notation point := (rpoint V (rest N Sc F)).

Lemma nearest_swap (neg : N → N) (G : geo V Sc) leb (p : point) (result : list point) : total_order leb (g_lt G) →
  find_nearest G (swap_point neg p) (swap_point neg <$> result) = find_nearest G p result.
Proof.
  intros HT. pose proof (to_lt _ _ HT) as Hlt. pose proof (to_total _ _ HT) as Htot. pose proof (to_trans _ _ HT) as Htr.
  assert (Hrefl : ∀ x, leb x x = true) by (intros x; by destruct (Htot x x)).
  assert (Hltle : ∀ x y, g_lt G x y = true → leb x y = true).
  { intros x y H. rewrite Hlt in H. apply negb_true_iff in H. destruct (Htot x y); congruence. }
  assert (Hnlt : ∀ x y, g_lt G x y = false → leb y x = true).
  { intros x y H. rewrite Hlt in H. by apply negb_false_iff in H. }
  assert (Hlt_le : ∀ x y z, g_lt G x y = true → leb y z = true → g_lt G x z = true).
  { intros x y z H1 H2. rewrite Hlt in H1 |- *. apply negb_true_iff in H1. apply negb_true_iff.
    destruct (leb z x) eqn:E; [|done]. rewrite (Htr _ _ _ H2 E) in H1. done. }
  set (step := λ d1 d2 s (n i : nat), let '(s, n) := if g_lt G d1 s then (d1, i) else (s, n) in if g_lt G d2 s then (d2, i) else (s, n)).
  assert (Hs : ∀ d1 d2 s n i, let '(s', n') := step d1 d2 s n i in
     n' = (if g_lt G d1 s || g_lt G d2 s then i else n) ∧ leb s' s = true ∧ leb s' d1 = true ∧ leb s' d2 = true ∧ (s' = s ∨ s' = d1 ∨ s' = d2)).
  { intros d1 d2 s n i. unfold step. destruct (g_lt G d1 s) eqn:E1; [destruct (g_lt G d2 d1) eqn:E2|destruct (g_lt G d2 s) eqn:E2]; simpl; split_and!; eauto. }
  assert (HH : ∀ (result : list point) (s s' : Sc) (n i : nat), leb s s' = true → leb s' s = true →
    (foldl (λ '(s, n, i) (q : point),
     let dA := g_dist G (rp_a q) (rp_a (swap_point neg p)) in
     let dB := g_dist G (rp_b q) (rp_b (swap_point neg p)) in
     let '(s, n) := if g_lt G dA s then (dA, i) else (s, n) in
     let '(s, n) := if g_lt G dB s then (dB, i) else (s, n) in
     (s, n, S i)) (s, n, i) (swap_point neg <$> result)).1.2 =
    (foldl (λ '(s, n, i) (q : point),
     let dA := g_dist G (rp_a q) (rp_a p) in
     let dB := g_dist G (rp_b q) (rp_b p) in
     let '(s, n) := if g_lt G dA s then (dA, i) else (s, n) in
     let '(s, n) := if g_lt G dB s then (dB, i) else (s, n) in
     (s, n, S i)) (s', n, i) result).1.2).
  2:{ unfold find_nearest. rewrite fmap_length. by apply HH. }
  clear result. intros result. induction result as [|q result IH]; intros s s' n i H1 H2; [done|].
  rewrite fmap_cons. cbn [foldl]. cbv zeta.
  change (rp_a (swap_point neg q)) with (rp_b q). change (rp_b (swap_point neg q)) with (rp_a q).
  change (rp_a (swap_point neg p)) with (rp_b p). change (rp_b (swap_point neg p)) with (rp_a p).
  set (dA := g_dist G (rp_a q) (rp_a p)). set (dB := g_dist G (rp_b q) (rp_b p)).
  pose proof (Hs dB dA s n i) as HA. pose proof (Hs dA dB s' n i) as HB. unfold step in HA, HB.
  assert (Esame : g_lt G dB s || g_lt G dA s = g_lt G dA s' || g_lt G dB s').
  { assert (E : ∀ d, g_lt G d s = g_lt G d s').
    { intros d. destruct (g_lt G d s) eqn:E, (g_lt G d s') eqn:E'; try done.
      - by rewrite (Hlt_le _ _ _ E H1) in E'.
      - by rewrite (Hlt_le _ _ _ E' H2) in E. }
    rewrite !E. apply orb_comm. }
  destruct (if g_lt G dB s then (dB, i) else (s, n)) as [s1 n1].
  destruct (if g_lt G dA s1 then (dA, i) else (s1, n1)) as [s2 n2].
  destruct (if g_lt G dA s' then (dA, i) else (s', n)) as [t1 k1].
  destruct (if g_lt G dB t1 then (dB, i) else (t1, k1)) as [t2 k2].
  destruct HA as (-> & A1 & A2 & A3 & A4), HB as (-> & B1 & B2 & B3 & B4). rewrite Esame. apply IH.
  - destruct B4 as [->|[->| ->]]; eauto.
  - destruct A4 as [->|[->| ->]]; eauto.
Qed.
End matching.

(** Slots, insertion and removal in the dynamic tree. *)
From Verif Require Import Outcome Chain TreeModel TreeProofs.

Section slots.
Context {box : Type}.
Notation tnode := (tnode box).
Notation tree := (tree box).
Ltac upds := rewrite nupd_ok by (rewrite ?alter_length; done); cbn [mbind res_bind].

(** ** Slots: [l] in the tree, [X] allocated but not linked, [fc] free. *)
Definition flink (T : tree) (i : nat) : option (option nat) := tn_link <$> t_nodes T !! i.
Record pst (T : tree) (l X fc : list nat) : Prop := {
  ps_nodup : NoDup (l ++ X ++ fc);
  ps_all : ∀ i, i < length (t_nodes T) ↔ i ∈ l ++ X ++ fc;
  ps_free : chain (flink T) (t_free T) fc;
  ps_loose : ∀ x, x ∈ X → ∃ n, t_nodes T !! x = Some n ∧ tn_c1 n = None ∧ tn_h n = 0%Z }.

Lemma pst_lookup T l X fc i : pst T l X fc → i ∈ l ++ X ++ fc → ∃ n, t_nodes T !! i = Some n.
Proof. intros P Hi. apply (ps_all _ _ _ _ P) in Hi. by apply lookup_lt_is_Some in Hi. Qed.

Lemma pst_len T l X fc : pst T l X fc → length (t_nodes T) = length (l ++ X ++ fc).
Proof.
  intros P. assert (l ++ X ++ fc ≡ₚ seq 0 (length (t_nodes T))) as ->; [|by rewrite seq_length].
  apply NoDup_Permutation; [apply P|apply NoDup_seq|]. intros i. rewrite <- (ps_all _ _ _ _ P), elem_of_seq. lia.
Qed.

Lemma pst_change T T' l l' X X' fc :
  pst T l X fc → t_free T' = t_free T → length (t_nodes T') = length (t_nodes T) →
  l' ++ X' ≡ₚ l ++ X → (∀ i, i ∈ fc → t_nodes T' !! i = t_nodes T !! i) →
  (∀ x, x ∈ X' → ∃ n, t_nodes T' !! x = Some n ∧ tn_c1 n = None ∧ tn_h n = 0%Z) →
  pst T' l' X' fc.
Proof.
  intros [P1 P2 P3 P4] Hf Hl Hp Hs Hx. split.
  - rewrite (assoc_L (++)), Hp, <- (assoc_L (++)). done.
  - intros i. rewrite Hl, P2, !(assoc_L (++)), Hp. done.
  - rewrite Hf. eapply chain_ext; [|exact P3]. intros i Hi. unfold flink. by rewrite Hs.
  - done.
Qed.

Context (box0 : box).
Notation allocate := (allocate box0).
Lemma allocate_spec (T : tree) l X fc :
  pst T l X fc →
  ∃ T' id fc' b, allocate T = Ok (T', id) ∧ pst T' l (id :: X) fc' ∧ t_root T' = t_root T ∧
    (∀ i, i ∈ l ++ X → t_nodes T' !! i = t_nodes T !! i) ∧
    t_nodes T' !! id = Some (TN None None None b 0%Z) ∧ id ∉ l ++ X ∧
    (∀ i, i ∈ fc' → i ∈ fc) ∧ (fc ≠ [] → id ∈ fc) ∧ (fc = [] → id = length (t_nodes T)).
Proof.
  intros P. unfold TreeModel.allocate. pose proof P as [P1 P2 P3 P4].
  destruct fc as [|x fc]; simpl in P3.
  - rewrite P3. rewrite app_nil_r in P1. setoid_rewrite app_nil_r in P2.
    assert (Hnew : length (t_nodes T) ∉ l ++ X) by (rewrite <- P2; lia).
    eexists _, _, [], box0. split; [done|].
    assert (Hsame : ∀ i, i ∈ l ++ X →
      (t_nodes T ++ [TN None None None box0 0%Z]) !! i = t_nodes T !! i).
    { intros i Hi. apply P2 in Hi. by rewrite lookup_app_l. }
    assert (Hid : (t_nodes T ++ [TN None None None box0 0%Z]) !! length (t_nodes T) =
      Some (TN None None None box0 0%Z)) by (by apply list_lookup_middle).
    split_and!; try done.
    split; simpl.
    + rewrite app_nil_r. apply NoDup_app in P1 as (N1 & N2 & N3). apply NoDup_app. split_and!; [done| |].
      * intros i Hi [->|Hi']%elem_of_cons; [|by eapply N2]. apply Hnew, elem_of_app. by left.
      * apply NoDup_cons. split; [|done]. intros Hi. apply Hnew, elem_of_app. by right.
    + intros i. rewrite app_length, app_nil_r. simpl. rewrite elem_of_app, elem_of_cons.
      pose proof (P2 i) as Hp. rewrite elem_of_app in Hp.
      assert (i < length (t_nodes T) + 1 ↔ i < length (t_nodes T) ∨ i = length (t_nodes T)) as -> by lia. tauto.
    + done.
    + intros x [->|Hx]%elem_of_cons; [eexists; split; [exact Hid|done]|].
      rewrite Hsame by (apply elem_of_app; by right). by apply P4.
  - destruct P3 as (-> & nl & Hnl & Hc). unfold flink in Hnl.
    destruct (t_nodes T !! x) as [n|] eqn:Hn; [|done]. simpl in Hnl. injection Hnl as <-.
    rewrite (nget_ok _ _ _ Hn). cbn [mbind res_bind].
    assert (Hlt : x < length (t_nodes T)) by (by eapply lookup_lt_Some). upds.
    assert (Hx : x ∉ l ++ X ++ fc).
    { assert (x :: (l ++ X ++ fc) ≡ₚ l ++ X ++ x :: fc) as Hp by solve_Permutation.
      rewrite <- Hp in P1. by apply NoDup_cons in P1 as [? _]. }
    assert (Hsame : ∀ i, i ∈ l ++ X ++ fc →
      alter (λ n, TN None None None (tn_box n) 0%Z) x (t_nodes T) !! i = t_nodes T !! i).
    { intros i Hi. rewrite list_lookup_alter_ne; [done|]. by intros ->. }
    assert (Hid : alter (λ n, TN None None None (tn_box n) 0%Z) x (t_nodes T) !! x =
      Some (TN None None None (tn_box n) 0%Z)) by (by rewrite list_lookup_alter, Hn).
    assert (Hinc : ∀ i, i ∈ l ++ X → i ∈ l ++ X ++ fc).
    { intros i. rewrite !elem_of_app. tauto. }
    eexists _, x, fc, (tn_box n). split; [done|]. split_and!; try done.
    + split; simpl.
      * assert (l ++ x :: X ++ fc ≡ₚ l ++ X ++ x :: fc) as -> by solve_Permutation. done.
      * intros i. rewrite alter_length, P2.
        assert (l ++ x :: X ++ fc ≡ₚ l ++ X ++ x :: fc) as -> by solve_Permutation. done.
      * eapply chain_ext; [|exact Hc]. intros i Hi. unfold flink. simpl. rewrite Hsame; [done|].
        rewrite !elem_of_app. by right; right.
      * intros y [->|Hy]%elem_of_cons; [eexists; split; [exact Hid|done]|].
        rewrite Hsame by (rewrite !elem_of_app; by right; left). by apply P4.
    + intros i Hi. simpl. apply Hsame, Hinc, Hi.
    + intros Hi. by apply Hx, Hinc.
    + intros i Hi. by right.
    + intros _. by left.
Qed.

Lemma tfree_gen (T : tree) x l l' X X' fc :
  pst T l' X' fc → l' ++ X' ≡ₚ x :: l ++ X → X ⊆ X' →
  ∃ T', tfree T x = Ok T' ∧ pst T' l X (x :: fc) ∧ t_root T' = t_root T ∧
    (∀ i, i ≠ x → t_nodes T' !! i = t_nodes T !! i) ∧ length (t_nodes T') = length (t_nodes T).
Proof.
  intros P Hperm Hsub. pose proof P as [P1 P2 P3 P4]. unfold tfree.
  assert (Hp : x :: (l ++ X ++ fc) ≡ₚ l' ++ X' ++ fc).
  { rewrite (assoc_L (++) l'), Hperm. simpl. by rewrite (assoc_L (++)). }
  rewrite <- Hp in P1. apply NoDup_cons in P1 as [Hx P1].
  destruct (pst_lookup _ _ _ _ x P) as [n Hn]; [rewrite <- Hp; by left|].
  assert (Hlt : x < length (t_nodes T)) by (by eapply lookup_lt_Some). upds.
  eexists. split; [done|].
  assert (Hs : ∀ f, ∀ i, i ≠ x → alter f x (t_nodes T) !! i = t_nodes T !! i).
  { intros f i Hi. by rewrite list_lookup_alter_ne. }
  split_and!; simpl; try done; [|by intros; apply Hs|by rewrite alter_length].
  assert (Hp2 : l ++ X ++ x :: fc ≡ₚ x :: (l ++ X ++ fc)) by solve_Permutation.
  split; simpl.
  - rewrite Hp2. by apply NoDup_cons.
  - intros i. rewrite alter_length, P2, <- Hp, Hp2. done.
  - split; [done|]. exists (t_free T). unfold flink. simpl. split; [by rewrite list_lookup_alter, Hn|].
    eapply chain_ext; [|exact P3]. intros i Hi. unfold flink. rewrite Hs; [done|]. intros ->.
    apply Hx. rewrite !elem_of_app. auto.
  - intros y Hy. rewrite Hs; [apply P4; by apply Hsub|]. intros ->. apply Hx. rewrite !elem_of_app. auto.
Qed.
Lemma tfree_spec (T : tree) x l X fc :
  pst T l (x :: X) fc →
  ∃ T', tfree T x = Ok T' ∧ pst T' l X (x :: fc) ∧ t_root T' = t_root T ∧
    (∀ i, i ≠ x → t_nodes T' !! i = t_nodes T !! i) ∧ length (t_nodes T') = length (t_nodes T).
Proof.
  intros P. eapply tfree_gen; [exact P|solve_Permutation|]. intros i Hi. by right.
Qed.
End slots.

Section proofs.
Context {box scalar : Type}.
Context (enclose : box → box → box) (inset : box → box) (contains : box → box → bool).
Context (area : box → scalar) (s_add s_sub s_mul : scalar → scalar → scalar)
        (s_two : scalar) (s_lt : scalar → scalar → bool) (box0 : box).
Context (sub : box → box → Prop).
Context (enclose_l : ∀ a b, sub a (enclose a b)) (enclose_r : ∀ a b, sub b (enclose a b)).
Notation tnode := (tnode box).
Notation tree := (tree box).
Implicit Types ns : list tnode.
Notation best_loop := (best_loop enclose area s_add s_sub s_mul s_two s_lt).
Notation best := (best enclose area s_add s_sub s_mul s_two s_lt).
Notation insert := (insert enclose area s_add s_sub s_mul s_two s_lt box0).
Notation remove := (remove enclose).
Notation allocate := (allocate box0).
Notation refit := (refit enclose).
Notation fit := (fit sub).
Notation fit_ctx := (fit_ctx sub).
Notation refitted := (refitted sub).

Ltac upds := rewrite nupd_ok by (rewrite ?alter_length; done); cbn [mbind res_bind].
Ltac look := repeat (first [ rewrite list_lookup_alter | rewrite list_lookup_alter_ne by congruence ]).

(** ** The whole structure, with its ghost tree. *)
Definition oids (ot : option bt) : list nat := match ot with Some t => ids t | None => [] end.
Definition oleaves (ot : option bt) : list nat := match ot with Some t => leaves t | None => [] end.
Definition tst (T : tree) (ot : option bt) (X fc : list nat) : Prop :=
  pst T (oids ot) X fc ∧
  match ot with
  | None => t_root T = None
  | Some t => t_root T = Some (bid t) ∧ rep (t_nodes T) None t ∧ fit (t_nodes T) t
  end.

Lemma cids_length c : length c ≤ length (cids c).
Proof.
  induction c as [|f c IH]; [done|].
  change (cids (f :: c)) with ((f_id f :: ids (f_sib f)) ++ cids c). rewrite app_length. simpl. lia.
Qed.

Lemma croot_bid c t : bid (plug c t) = croot c (bid t).
Proof. apply bid_plug. Qed.

(** Every leaf is reached through some context. *)
Lemma leaf_ctx t x : x ∈ leaves t → ∃ c, t = plug c (L x).
Proof.
  assert (∀ c0, x ∈ leaves t → ∃ c, plug c0 t = plug c (L x)) as H; [|by apply (H [])].
  induction t as [i|i l IHl r IHr]; intros c0; simpl.
  - intros ->%elem_of_list_singleton. by exists c0.
  - intros [Hx|Hx]%elem_of_app.
    + destruct (IHl (F i true r :: c0) Hx) as [c Hc]. by exists c.
    + destruct (IHr (F i false l :: c0) Hx) as [c Hc]. by exists c.
Qed.

Lemma best_loop_spec ns b : ∀ u c fuel,
  rep ns (top c) u → length (ids u) ≤ fuel →
  ∃ c' u', best_loop ns fuel (Some (bid u)) b = Ok (bid u') ∧ plug c u = plug c' u'.
Proof.
  induction u as [i|i l IHl r IHr]; intros c fuel Hr Hf.
  - destruct Hr as (n & Hn & _ & H1). exists c, (L i). split; [|done].
    destruct fuel; cbn [TreeModel.best_loop bid]; rewrite (nget_ok _ _ _ Hn); cbn [mbind res_bind];
      unfold tleaf; rewrite bool_decide_true by done; done.
  - destruct Hr as (n & Hn & _ & H1 & H2 & Hl & Hr).
    destruct fuel as [|fuel]; [simpl in Hf; lia|]. simpl in Hf. rewrite app_length in Hf.
    cbn [TreeModel.best_loop bid]. rewrite (nget_ok _ _ _ Hn). cbn [mbind res_bind].
    unfold tleaf at 1. rewrite bool_decide_false by (by rewrite H1). rewrite H1, H2.
    destruct (rep_root _ _ _ Hl) as (n1 & Hn1 & _). destruct (rep_root _ _ _ Hr) as (n2 & Hn2 & _).
    rewrite (nget_ok _ _ _ Hn1), (nget_ok _ _ _ Hn2). cbn [mbind res_bind].
    destruct (_ && _).
    + exists c, (N i l r). done.
    + destruct (s_lt _ _).
      * destruct (IHl (F i true r :: c) fuel Hl) as (c' & u' & ? & ?); [lia|]. by exists c', u'.
      * destruct (IHr (F i false l :: c) fuel Hr) as (c' & u' & ? & ?); [lia|]. by exists c', u'.
Qed.

Definition point_to (b : nat) (f : frame) : tnode → tnode :=
  if f_left f then set_c1 (Some b) else set_c2 (Some b).

Lemma rep_ctx_retarget ns ns' c a b :
  rep_ctx ns c a → NoDup (cids c) →
  (∀ i, i ∈ cids c → top c ≠ Some i → ns' !! i = ns !! i) →
  (∀ f c', c = f :: c' → ns' !! f_id f = point_to b f <$> ns !! f_id f) →
  rep_ctx ns' c b.
Proof.
  destruct c as [|f c]; [done|]. intros (n & Hn & Hl & H1 & H2 & Hs & Hc) Hnd Hsame Htop.
  specialize (Htop f c eq_refl). rewrite Hn in Htop. simpl in Hnd.
  apply NoDup_cons in Hnd as [Hf _].
  assert (Hsame' : ∀ i, i ∈ ids (f_sib f) ++ cids c → ns' !! i = ns !! i).
  { intros i Hi. apply Hsame; [by right|]. unfold top; simpl. intros [= <-]. done. }
  exists (point_to b f n). split; [done|]. unfold point_to. split_and!.
  - by destruct (f_left f).
  - by destruct (f_left f).
  - by destruct (f_left f).
  - eapply rep_ext; [|done]. intros i Hi. apply Hsame', elem_of_app. by left.
  - eapply rep_ctx_ext; [|done]. intros i Hi. apply Hsame', elem_of_app. by right.
Qed.
Lemma fit_ctx_retarget ns ns' c a :
  rep_ctx ns c a → NoDup (cids c) →
  (∀ i, i ∈ cids c → top c ≠ Some i → ns' !! i = ns !! i) → fit_ctx ns c → fit_ctx ns' c.
Proof.
  intros Hr Hnd Hsame. eapply fit_ctx_same; [|done]. intros g i Hg Hi. apply Hsame.
  - apply elem_of_list_bind. exists g. split; [by right|done].
  - destruct c as [|f c]; [done|]. unfold top. simpl. intros [= <-]. simpl in Hnd.
    apply NoDup_cons in Hnd as [Hf _]. apply Hf, elem_of_app.
    apply elem_of_cons in Hg as [->|Hg]; [by left|]. right. apply elem_of_list_bind. exists g.
    split; [by right|done].
Qed.

(** From a refitted tree back to the whole structure. *)
Lemma tst_refitted T t T' t' X fc :
  pst T (ids t) X fc → refitted T t T' t' → tst T' (Some t') X fc.
Proof.
  intros P [R1 R2 R3 R4 R5 R6 R7 R8 R9]. split; [|done].
  pose proof (ps_nodup _ _ _ _ P) as Hnd. apply NoDup_app in Hnd as (_ & Hd & _).
  assert (Hs : ∀ i, i ∈ X ++ fc → t_nodes T' !! i = t_nodes T !! i).
  { intros i Hi. apply R9. intros Hi'. by eapply Hd. }
  eapply pst_change; [exact P|done|done| | |].
  - simpl. by rewrite R6.
  - intros i Hi. apply Hs, elem_of_app. by right.
  - intros x Hx. rewrite Hs by (apply elem_of_app; by left). by apply P.
Qed.

(** ** insert *)
Definition ins_tree (c : list frame) (np : nat) (u : bt) (leaf : nat) : bt := plug c (N np u (L leaf)).

Lemma insert_spec (T : tree) x ot X fc :
  tst T ot (x :: X) fc →
  ∃ T' t' fc', insert T x = Ok T' ∧ tst T' (Some t') X fc' ∧ leaves t' ≡ₚ x :: oleaves ot ∧
    (∀ i n, i ∈ x :: oleaves ot → t_nodes T !! i = Some n →
       ∃ n', t_nodes T' !! i = Some n' ∧ same_leaf n n').
Proof.
  intros [P Hot]. unfold TreeModel.insert.
  destruct (ps_loose _ _ _ _ P x) as (nx & Hnx & Hx1 & Hxh); [by left|].
  assert (Hxlt : x < length (t_nodes T)) by (by eapply lookup_lt_Some).
  destruct ot as [t|]; simpl in P; cycle 1.
  { rewrite Hot. upds.
    assert (Hxn : alter (set_link None) x (t_nodes T) !! x = Some (set_link None nx)) by (by rewrite list_lookup_alter, Hnx).
    pose proof (ps_nodup _ _ _ _ P) as Hnd. simpl in Hnd. apply NoDup_cons in Hnd as [Hxn' _].
    eexists _, (L x), fc. split; [done|]. split; [split|].
    - eapply pst_change; [exact P|done|simpl; by rewrite alter_length|done| |].
      + intros i Hi. simpl. rewrite list_lookup_alter_ne; [done|]. intros ->. apply Hxn', elem_of_app. auto.
      + intros y Hy. simpl. rewrite list_lookup_alter_ne; [apply (ps_loose _ _ _ _ P); by right|].
        intros ->. apply Hxn', elem_of_app. auto.
    - simpl. split; [done|]. split; eexists; (split; [exact Hxn|done]).
    - split; [done|]. intros i n ->%elem_of_list_singleton Hn. simplify_eq. eexists.
      split; [exact Hxn|done]. }
  destruct Hot as (Hroot & Hrep & Hfit).
  rewrite Hroot. rewrite (nget_ok _ _ _ Hnx). cbn [mbind res_bind].
  destruct (best_loop_spec (t_nodes T) (tn_box nx) t [] (length (t_nodes T))) as (c & u & Hb & Ht).
  { done. }
  { rewrite (pst_len _ _ _ _ P), app_length. lia. }
  unfold TreeModel.best. rewrite Hroot, Hb. cbn [mbind res_bind]. simpl in Ht. subst t. clear Hb.
  pose proof (proj1 (rep_plug _ _ _) Hrep) as (Hrc & Hru).
  destruct (fit_plug_sibs _ _ _ _ Hfit) as (Hfc & Hfu).
  destruct (rep_root _ _ _ Hru) as (nu & Hnu & Hul).
  rewrite (nget_ok _ _ _ Hnu). cbn [mbind res_bind].
  destruct (allocate_spec box0 _ _ _ _ P) as (T1 & np & fc1 & b1 & -> & P1 & Hroot1 & Hs1 & Hnp & Hnpn & _).
  cbn [mbind res_bind].
  assert (Hnplt : np < length (t_nodes T1)) by (by eapply lookup_lt_Some).
  assert (Hids : ∀ i, i ∈ cids c ++ ids u → i ∈ ids (plug c u)).
  { intros i Hi. by rewrite ids_plug. }
  assert (Hs1' : ∀ i, i ∈ cids c ++ ids u → t_nodes T1 !! i = t_nodes T !! i).
  { intros i Hi. apply Hs1, elem_of_app. left. by apply Hids. }
  assert (Hnu1 : t_nodes T1 !! bid u = Some nu).
  { rewrite Hs1'; [done|]. apply elem_of_app. right. apply bid_ids. }
  assert (Hnx1 : t_nodes T1 !! x = Some nx).
  { rewrite Hs1; [done|]. apply elem_of_app. right. by left. }
  assert (Hult : bid u < length (t_nodes T1)) by (by eapply lookup_lt_Some).
  assert (Hxlt1 : x < length (t_nodes T1)) by (by eapply lookup_lt_Some).
  pose proof (ps_nodup _ _ _ _ P) as Hnd.
  assert (Hndcu : NoDup (cids c ++ ids u)).
  { apply NoDup_app in Hnd as (Hnd & _). by rewrite ids_plug in Hnd. }
  assert (Hndc : NoDup (cids c)) by (by apply NoDup_app in Hndcu as (? & _)).
  assert (Hndu : NoDup (ids u)) by (by apply NoDup_app in Hndcu as (_ & _ & ?)).
  assert (Hcu : ∀ i, i ∈ cids c → i ∉ ids u) by (by apply NoDup_app in Hndcu as (_ & ? & _)).
  assert (Hxcu : x ∉ cids c ++ ids u).
  { intros Hi. apply Hids in Hi. apply NoDup_app in Hnd as (_ & Hd & _). apply (Hd _ Hi). simpl. by left. }
  assert (Hnpcu : np ∉ cids c ++ ids u).
  { intros Hi. apply Hids in Hi. apply Hnpn, elem_of_app. auto. }
  assert (Hnpx : np ≠ x).
  { intros ->. apply Hnpn, elem_of_app. right. by left. }
  assert (Hnpu : np ≠ bid u).
  { intros ->. apply Hnpcu, elem_of_app. right. apply bid_ids. }
  assert (Hxu : x ≠ bid u).
  { intros ->. apply Hxcu, elem_of_app. right. apply bid_ids. }
  upds.
  rewrite (nget_ok _ _ nu) by (look; done). cbn [mbind res_bind].
  do 2 upds.
  set (ns1 := alter (set_h _) np _).
  assert (Hns1 : ∀ i, i ≠ np → ns1 !! i = t_nodes T1 !! i) by (intros i Hi; subst ns1; by look).
  assert (Hns1np : ns1 !! np = Some (TN (top c) None None (enclose (tn_box nu) (tn_box nx)) (tn_h nu + 1)%Z)).
  { subst ns1. look. rewrite Hnp, Hul. done. }
  assert (Hns1l : length ns1 = length (t_nodes T1)) by (subst ns1; by rewrite !alter_length).
  rewrite Hul.
  set (ns2 := match c with [] => ns1 | f :: _ => alter (point_to np f) (f_id f) ns1 end).
  assert (Hns2 : (match top c with
         | Some old =>
           on ← nget ns1 (Some old);
           if decide (tn_c1 on = Some (bid u)) then nupd ns1 (Some old) (set_c1 (Some np))
           else nupd ns1 (Some old) (set_c2 (Some np))
         | None => Ok ns1
         end) = Ok ns2).
  { subst ns2. destruct c as [|f c]; [done|]. unfold top. simpl (fmap _ _).
    pose proof Hrc as (nf & Hnf & _ & Hf1 & Hf2 & _).
    assert (Hfin : f_id f ∈ cids (f :: c)) by (simpl; by left).
    assert (Hnf1 : ns1 !! f_id f = Some nf).
    { rewrite Hns1. - rewrite Hs1'; [done|]. apply elem_of_app. by left.
      - intros <-. apply Hnpcu, elem_of_app. by left. }
    assert (f_id f < length ns1) by (by eapply lookup_lt_Some).
    simpl (head _). rewrite (nget_ok _ _ _ Hnf1). cbn [mbind res_bind]. unfold point_to. destruct (f_left f).
    - rewrite decide_True by done. by rewrite nupd_ok.
    - rewrite decide_False; [by rewrite nupd_ok|]. rewrite Hf1. intros [= Heq].
      apply (Hcu (bid (f_sib f))); [|rewrite Heq; apply bid_ids].
      simpl. right. apply elem_of_app. left. apply bid_ids. }
  rewrite Hns2. clear Hns2. cbn [mbind res_bind].
  assert (Hns2l : length ns2 = length (t_nodes T1)).
  { subst ns2. destruct c; [done|]. by rewrite alter_length. }
  rewrite <- Hns2l in Hnplt, Hult, Hxlt1.
  do 4 upds.
  set (ns3 := alter _ x _).
  (* lookups in the final array *)
  assert (Hlk2 : ∀ i, i ≠ np → top c ≠ Some i → ns2 !! i = t_nodes T1 !! i).
  { intros i Hi Hi'. subst ns2. destruct c as [|f c]; [by apply Hns1|].
    rewrite list_lookup_alter_ne; [by apply Hns1|]. intros <-. by apply Hi'. }
  assert (Htopin : ∀ i, top c = Some i → i ≠ np ∧ i ≠ x ∧ i ≠ bid u).
  { intros i Hi%top_cids. split_and!.
    - intros ->. apply Hnpcu, elem_of_app. by left.
    - intros ->. apply Hxcu, elem_of_app. by left.
    - intros ->. eapply Hcu; [done|apply bid_ids]. }
  assert (Hlk3 : ∀ i, i ≠ np → i ≠ x → i ≠ bid u → top c ≠ Some i → ns3 !! i = t_nodes T1 !! i).
  { intros i H1 H2 H3 H4. subst ns3. look. by apply Hlk2. }
  assert (Hnp3 : ns3 !! np = Some (TN (top c) (Some (bid u)) (Some x)
     (enclose (tn_box nu) (tn_box nx)) (tn_h nu + 1)%Z)).
  { subst ns3. look. assert (ns2 !! np = ns1 !! np) as ->.
    { subst ns2. destruct c as [|f c]; [done|]. rewrite list_lookup_alter_ne; [done|].
      destruct (Htopin (f_id f)); [done|done]. }
    rewrite Hns1np. done. }
  assert (Hx3 : ns3 !! x = Some (set_link (Some np) nx)).
  { subst ns3. look. rewrite Hlk2; [by rewrite Hnx1|done|]. intros Hi. by apply Htopin in Hi as (_ & ? & _). }
  assert (Hu3 : ns3 !! bid u = set_link (Some np) <$> t_nodes T !! bid u).
  { subst ns3. look. rewrite Hlk2; [by rewrite Hnu1, Hnu|done|]. intros Hi. by apply Htopin in Hi as (_ & _ & ?). }
  assert (Hno : ∀ i, i ∈ ids u → top c ≠ Some i).
  { intros i Hi Hi'%top_cids. by eapply Hcu. }
  assert (Hu3' : ∀ i, i ∈ ids u → i ≠ bid u → ns3 !! i = t_nodes T !! i).
  { intros i Hi Hne. rewrite Hlk3; [apply Hs1', elem_of_app; by right| | |done|by apply Hno].
    - intros ->. apply Hnpcu, elem_of_app. by right.
    - intros ->. apply Hxcu, elem_of_app. by right. }
  assert (Hc3 : ∀ i, i ∈ cids c → top c ≠ Some i → ns3 !! i = t_nodes T !! i).
  { intros i Hi Hne. rewrite Hlk3; [apply Hs1', elem_of_app; by left| | | |done].
    - intros ->. apply Hnpcu, elem_of_app. by left.
    - intros ->. apply Hxcu, elem_of_app. by left.
    - intros ->. eapply Hcu; [done|apply bid_ids]. }
  assert (Htop3 : ∀ f c', c = f :: c' → ns3 !! f_id f = point_to np f <$> t_nodes T !! f_id f).
  { intros f c' ->. destruct (Htopin (f_id f)) as (? & ? & ?); [done|]. subst ns3. look. subst ns2. look.
    rewrite Hns1 by done. f_equal. apply Hs1', elem_of_app. left. simpl. by left. }
  assert (Hrep3 : rep ns3 (top c) (N np u (L x))).
  { eexists. split; [exact Hnp3|]. simpl. split_and!; try done.
    - eapply rep_relink; [exact Hu3'|exact Hu3|done|exact Hru].
    - eexists. split; [exact Hx3|done]. }
  assert (Hrc3 : rep_ctx ns3 c np) by (eapply rep_ctx_retarget; done).
  assert (Hfc3 : fit_ctx ns3 c) by exact (fit_ctx_retarget _ _ _ _ Hrc Hndc Hc3 Hfc).
  assert (Hfu3 : fit ns3 u) by (eapply fit_relink; [exact Hu3'|exact Hu3|exact Hru|done]).
  assert (Hfx3 : fit ns3 (L x)) by (eexists; split; [exact Hx3|done]).
  assert (Hnd3 : NoDup (cids c ++ ids (N np u (L x)))).
  { simpl. assert (cids c ++ np :: ids u ++ [x] ≡ₚ np :: x :: cids c ++ ids u) as -> by solve_Permutation.
    apply NoDup_cons. split.
    - intros [->|Hi]%elem_of_cons; done.
    - by apply NoDup_cons. }
  rewrite (nget_ok _ _ _ Hx3). cbn [mbind res_bind]. simpl (tn_link (set_link _ _)).
  set (T3 := Tree _ ns3 _).
  assert (Hl3 : length ns3 = length (t_nodes T1)) by (subst ns3; by rewrite !alter_length).
  assert (Hp3 : ids (plug c (N np u (L x))) ≡ₚ np :: x :: ids (plug c u)).
  { rewrite !ids_plug. simpl. solve_Permutation. }
  assert (P3 : pst T3 (ids (plug c (N np u (L x)))) X fc1).
  { pose proof (ps_nodup _ _ _ _ P1) as Hnd1.
    assert (Hpp : (np :: x :: ids (plug c u)) ++ X ++ fc1 ≡ₚ ids (plug c u) ++ (np :: x :: X) ++ fc1) by solve_Permutation.
    rewrite <- Hpp in Hnd1. apply NoDup_app in Hnd1 as (_ & Hd1 & _).
    assert (Hout : ∀ i, i ∈ X ++ fc1 → ns3 !! i = t_nodes T1 !! i).
    { intros i Hi. assert (Hi' : i ∉ np :: x :: ids (plug c u)) by (intros ?; by eapply Hd1).
      rewrite !not_elem_of_cons in Hi'. destruct Hi' as (? & ? & Hi'). apply Hlk3; try done.
      - intros ->. apply Hi', Hids, elem_of_app. right. apply bid_ids.
      - intros Htc%top_cids. apply Hi', Hids, elem_of_app. by left. }
    eapply pst_change; [exact P1|done|done| | |].
    - rewrite Hp3. solve_Permutation.
    - intros i Hi. apply Hout, elem_of_app. by right.
    - intros y Hy. simpl. rewrite Hout by (apply elem_of_app; by left).
      apply (ps_loose _ _ _ _ P1). right. by right. }
  destruct (refit_spec enclose sub enclose_l enclose_r c T3 np u (L x) (length ns3)) as (T' & t' & -> & HR); try done.
  { subst T3. simpl. destruct c as [|f c]; [done|]. simpl. rewrite Hroot1, Hroot.
    rewrite croot_bid. done. }
  { pose proof (cids_length c). rewrite <- (pst_len _ _ _ _ P3 : length ns3 = _), app_length || idtac.
    change (length ns3) with (length (t_nodes T3)). rewrite (pst_len _ _ _ _ P3), Hp3. simpl.
    rewrite app_length, ids_plug, app_length. lia. }
  exists T', t', fc1. split; [done|]. split; [by eapply tst_refitted|].
  assert (Hlv : leaves (plug c (N np u (L x))) ≡ₚ x :: leaves (plug c u)).
  { rewrite !leaves_plug. simpl. solve_Permutation. }
  split; [by rewrite (rf_leaves _ _ _ _ _ HR), Hlv|].
  intros i n Hi Hn. simpl in Hi.
  assert (∃ n3, ns3 !! i = Some n3 ∧ same_leaf n n3) as (n3 & Hn3 & Hsl).
  { destruct (decide (i = x)) as [->|Hix].
    { eexists. split; [exact Hx3|]. simplify_eq. done. }
    apply elem_of_cons in Hi as [?|Hi]; [done|]. 
    rewrite leaves_plug in Hi. apply elem_of_app in Hi as [Hi|Hi].
    - exists n. split; [|done]. rewrite <- Hn.
      assert (Hic : i ∈ cids c).
      { apply elem_of_list_bind in Hi as (g & Hg & Hgc). apply elem_of_list_bind. exists g. split; [|done].
        right. by apply leaves_ids. }
      apply Hc3; [done|]. destruct c as [|f c]; [done|]. unfold top. simpl. intros [= <-].
      simpl in Hndc. apply NoDup_cons in Hndc as [Hf _]. apply Hf. simpl in Hi.
      apply elem_of_app in Hi as [Hi|Hi]; apply elem_of_app.
      + left. by apply leaves_ids.
      + right. apply elem_of_list_bind in Hi as (g & Hg & Hgc). apply elem_of_list_bind. exists g. split; [|done].
        right. by apply leaves_ids.
    - apply leaves_ids in Hi. destruct (decide (i = bid u)) as [->|Hne].
      + rewrite Hu3, Hn. eexists. split; [done|]. done.
      + exists n. split; [|done]. rewrite <- Hn. by apply Hu3'. }
  destruct (rf_leaf _ _ _ _ _ HR i n3) as (n' & Hn' & Hsl').
  { by rewrite Hlv. }
  { done. }
  exists n'. split; [done|]. unfold same_leaf in *. destruct Hsl as (? & ? & ?), Hsl' as (? & ? & ?).
  split_and!; congruence.
Qed.

(** ** remove *)
Lemma remove_spec (T : tree) x t X fc :
  tst T (Some t) X fc → x ∈ leaves t →
  ∃ T' ot' fc', remove T x = Ok T' ∧ tst T' ot' (x :: X) fc' ∧ x :: oleaves ot' ≡ₚ leaves t ∧
    (∀ i n, i ∈ leaves t → t_nodes T !! i = Some n →
       ∃ n', t_nodes T' !! i = Some n' ∧ same_leaf n n').
Proof.
  intros (P & Hroot & Hrep & Hfit) Hx. simpl in P.
  destruct (leaf_ctx _ _ Hx) as [c ->]. clear Hx.
  pose proof (proj1 (rep_plug _ _ _) Hrep) as (Hrc & (nx & Hnx & Hlx & Hx1)).
  destruct (fit_plug_sibs _ _ _ _ Hfit) as (Hfc & (nx' & Hnx' & Hxh)). simplify_eq.
  rewrite croot_bid in Hroot. simpl in Hrc, Hroot. unfold TreeModel.remove.
  pose proof (ps_nodup _ _ _ _ P) as Hnd.
  assert (Hndc : NoDup (cids c ++ [x])).
  { apply NoDup_app in Hnd as (Hnd & _). by rewrite ids_plug in Hnd. }
  destruct c as [|f c].
  { simpl in *. rewrite decide_True by done. eexists _, None, fc. split; [done|].
    split; [|split; [done|]].
    - split; [|done]. simpl. eapply pst_change; [exact P|done|done|done|done|].
      intros y [->|Hy]%elem_of_cons; [by exists nx|]. by apply P.
    - intros i n ->%elem_of_list_singleton Hn. exists n. done. }
  destruct f as [p left sib]. set (f := F p left sib) in *.
  pose proof Hrc as (np & Hnp & Hpl & Hp1 & Hp2 & Hrs & Hrc'). simpl in Hnp, Hp1, Hp2, Hrs, Hrc'.
  assert (Hids : ids (plug (f :: c) (L x)) ≡ₚ p :: x :: ids sib ++ cids c).
  { rewrite ids_plug. simpl. solve_Permutation. }
  assert (Hnd2 : NoDup (p :: x :: ids sib ++ cids c)).
  { rewrite <- Hids. by apply NoDup_app in Hnd as (? & _). }
  apply NoDup_cons in Hnd2 as [Hpn Hnd2]. apply NoDup_cons in Hnd2 as [Hxn Hnd2].
  rewrite not_elem_of_cons in Hpn. destruct Hpn as [Hpx Hpn].
  apply NoDup_app in Hnd2 as (Hnds & Hsc & Hndc').
  assert (Hps : p ∉ ids sib) by (intros ?; apply Hpn, elem_of_app; auto).
  assert (Hpc : p ∉ cids c) by (intros ?; apply Hpn, elem_of_app; auto).
  assert (Hxs : x ∉ ids sib) by (intros ?; apply Hxn, elem_of_app; auto).
  assert (Hxc : x ∉ cids c) by (intros ?; apply Hxn, elem_of_app; auto).
  pose proof (bid_ids sib) as Hsb.
  assert (Hbs : bid sib ≠ x) by (by intros <-). assert (Hbp : bid sib ≠ p) by (by intros <-).
  assert (Hrtx : t_root T ≠ Some x).
  { rewrite Hroot. simpl. destruct c as [|g c]; simpl.
    - intros [= ->]. done.
    - intros [= Heq]. apply Hxc. rewrite <- Heq. clear. revert g. induction c as [|h c IH]; intros g; simpl.
      + by left.
      + right. apply elem_of_app. right. apply IH. }
  rewrite decide_False by done. rewrite (nget_ok _ _ _ Hnx). cbn [mbind res_bind].
  rewrite Hlx. unfold top at 1. simpl (fmap _ _). cbn [opt_res mbind res_bind].
  rewrite (nget_ok _ _ _ Hnp). cbn [mbind res_bind].
  assert (Hosib : (if decide (tn_c1 np = Some x) then tn_c2 np else tn_c1 np) = Some (bid sib)).
  { destruct left; rewrite Hp1, Hp2.
    - by rewrite decide_True.
    - rewrite decide_False; [done|]. congruence. }
  cbv zeta. rewrite Hosib.
  destruct (rep_root _ _ _ Hrs) as (nsb & Hnsb & Hsl).
  assert (Hslt : bid sib < length (t_nodes T)) by (by eapply lookup_lt_Some).
  set (ns1 := match c with [] => t_nodes T | g :: _ => alter (point_to (bid sib) g) (f_id g) (t_nodes T) end).
  set (ns2 := alter (set_link (top c)) (bid sib) ns1).
  assert (Hl2 : length ns2 = length (t_nodes T)).
  { subst ns2 ns1. rewrite alter_length. destruct c; [done|]. by rewrite alter_length. }
  assert (Hlk2 : ∀ i, i ≠ bid sib → top c ≠ Some i → ns2 !! i = t_nodes T !! i).
  { intros i Hi Hi'. subst ns2. rewrite list_lookup_alter_ne by done. subst ns1.
    destruct c as [|g c]; [done|]. rewrite list_lookup_alter_ne; [done|]. intros <-. by apply Hi'. }
  assert (Htops : ∀ i, top c = Some i → i ≠ bid sib ∧ i ≠ p ∧ i ≠ x).
  { intros i Hi%top_cids. split_and!; intros ->; try done. by eapply Hsc. }
  assert (Hsib2 : ns2 !! bid sib = set_link (top c) <$> t_nodes T !! bid sib).
  { subst ns2. rewrite list_lookup_alter. f_equal. subst ns1. destruct c as [|g c]; [done|].
    rewrite list_lookup_alter_ne; [done|]. by apply Htops. }
  assert (Htop2 : ∀ g c', c = g :: c' → ns2 !! f_id g = point_to (bid sib) g <$> t_nodes T !! f_id g).
  { intros g c' ->. destruct (Htops (f_id g)) as (? & _); [done|]. subst ns2 ns1.
    rewrite list_lookup_alter_ne by done. by rewrite list_lookup_alter. }
  assert (Hout : ∀ i, i ∉ ids sib ++ cids c → ns2 !! i = t_nodes T !! i).
  { intros i Hi. apply Hlk2.
    - intros ->. apply Hi, elem_of_app. by left.
    - intros Hi'%top_cids. apply Hi, elem_of_app. by right. }
  set (root2 := match c with [] => Some (bid sib) | _ => t_root T end).
  set (T2 := Tree root2 ns2 (t_free T)).
  assert (Hgo : ∃ T3, tfree T2 p = Ok T3 ∧ pst T3 (ids sib ++ cids c) (x :: X) (p :: fc) ∧ t_root T3 = root2 ∧
    (∀ i, i ≠ p → t_nodes T3 !! i = ns2 !! i) ∧ length (t_nodes T3) = length (t_nodes T)).
  { assert (P2 : pst T2 (p :: ids sib ++ cids c) (x :: X) fc).
    { assert (Hd : ∀ i, i ∈ X ++ fc → ns2 !! i = t_nodes T !! i).
      { intros i Hi. apply Hout. intros Hi'. apply NoDup_app in Hnd as (_ & Hd & _).
        eapply Hd; [|exact Hi]. rewrite Hids. right. by right. }
      eapply pst_change; [exact P|done|done| | |].
      - rewrite Hids. solve_Permutation.
      - intros i Hi. apply Hd, elem_of_app. by right.
      - intros y [->|Hy]%elem_of_cons.
        + exists nx. split; [|done]. simpl. rewrite Hout; done.
        + simpl. rewrite Hd by (apply elem_of_app; by left). by apply P. }
    destruct (tfree_gen T2 p (ids sib ++ cids c) _ (x :: X) _ _ P2) as (T3 & ? & ? & ? & ? & Hl); [done|done|].
    exists T3. split_and!; try done. rewrite Hl. exact Hl2. }
  destruct Hgo as (T3 & HT3 & P3 & Hroot3 & Hs3 & Hl3).
  assert (Hlk3 : ∀ i, i ≠ p → i ≠ bid sib → top c ≠ Some i → t_nodes T3 !! i = t_nodes T !! i).
  { intros i H1 H2 H3. rewrite Hs3 by done. by apply Hlk2. }
  assert (Hsib3 : t_nodes T3 !! bid sib = set_link (top c) <$> t_nodes T !! bid sib).
  { by rewrite Hs3. }
  assert (Hsib3' : ∀ i, i ∈ ids sib → i ≠ bid sib → t_nodes T3 !! i = t_nodes T !! i).
  { intros i Hi Hne. apply Hlk3; [by intros ->|done|]. intros Hi'%top_cids. by eapply Hsc. }
  assert (Hrs3 : rep (t_nodes T3) (top c) sib) by (eapply rep_relink; [exact Hsib3'|exact Hsib3|done|exact Hrs]).
  assert (Hfs : fit (t_nodes T) sib) by (apply (Hfc f); by left).
  assert (Hfs3 : fit (t_nodes T3) sib) by (eapply fit_relink; [exact Hsib3'|exact Hsib3|exact Hrs|done]).
  assert (Hc3 : ∀ i, i ∈ cids c → top c ≠ Some i → t_nodes T3 !! i = t_nodes T !! i).
  { intros i Hi Hne. apply Hlk3; [by intros ->| |done]. intros ->. by eapply Hsc. }
  assert (Hrc3 : rep_ctx (t_nodes T3) c (bid sib)).
  { eapply rep_ctx_retarget; [exact Hrc'|done|exact Hc3|]. intros g c' Hg. rewrite Hs3; [by eapply Htop2|].
    subst c. by apply Htops. }
  assert (Hfc0 : fit_ctx (t_nodes T) c) by (intros g Hg; apply Hfc; by right).
  assert (Hfc3 : fit_ctx (t_nodes T3) c) by exact (fit_ctx_retarget _ _ _ _ Hrc' Hndc' Hc3 Hfc0).
  assert (Hlv : leaves (plug (f :: c) (L x)) ≡ₚ x :: leaves (plug c sib)).
  { rewrite !leaves_plug. simpl. solve_Permutation. }
  assert (Hleaf3 : ∀ i n, i ∈ x :: leaves (plug c sib) → t_nodes T !! i = Some n →
       ∃ n', t_nodes T3 !! i = Some n' ∧ same_leaf n n').
  { intros i n Hi Hn. destruct (decide (i = bid sib)) as [->|Hne].
    - rewrite Hsib3, Hn. eexists. split; [done|]. done.
    - exists n. split; [|done]. rewrite <- Hn. apply elem_of_cons in Hi as [->|Hi].
      { apply Hlk3; [done|done|]. intros Hi%top_cids. done. }
      rewrite leaves_plug in Hi. apply elem_of_app in Hi as [Hi|Hi].
      + apply Hc3.
        * apply elem_of_list_bind in Hi as (g & Hg & Hgc). apply elem_of_list_bind. exists g. split; [|done].
          right. by apply leaves_ids.
        * destruct c as [|g c]; [done|]. unfold top. simpl. intros [= <-].
          simpl in Hndc'. apply NoDup_cons in Hndc' as [Hf _]. apply Hf. simpl in Hi.
          apply elem_of_app in Hi as [Hi|Hi]; apply elem_of_app.
          -- left. by apply leaves_ids.
          -- right. apply elem_of_list_bind in Hi as (h & Hh & Hhc). apply elem_of_list_bind. exists h.
             split; [|done]. right. by apply leaves_ids.
      + apply Hsib3'; [by apply leaves_ids|done]. }
  clear Hfc Hrep Hfit Hrc.
  destruct c as [|g c].
  - simpl in Hroot. subst root2 ns2 ns1 T2. rewrite decide_True by done.
    upds. unfold top in HT3. simpl in HT3. rewrite HT3.
    exists T3, (Some sib), (p :: fc). split; [done|]. split; [|split; [by rewrite Hlv|]].
    + split; [|simpl; by split_and!]. simpl. by rewrite app_nil_r in P3.
    + intros i n Hi Hn. rewrite Hlv in Hi. by apply Hleaf3.
  - assert (Hrtp : t_root T ≠ Some p).
    { rewrite Hroot. simpl. intros [= Heq]. apply Hpc. rewrite <- Heq. clear. revert g.
      induction c as [|h c IH]; intros g; simpl.
      + by left.
      + right. apply elem_of_app. right. apply IH. }
    rewrite decide_False by done. rewrite Hpl. unfold top at 1. simpl (fmap _ _).
    cbn [head fmap option_fmap option_map].
    pose proof Hrc' as (ng & Hng & Hgl & Hg1 & Hg2 & Hgs & Hgc).
    assert (Hglt : f_id g < length (t_nodes T)) by (by eapply lookup_lt_Some).
    rewrite (nget_ok _ _ _ Hng). cbn [mbind res_bind].
    assert (Hns1 : (if decide (tn_c1 ng = Some p) then nupd (t_nodes T) (Some (f_id g)) (set_c1 (Some (bid sib)))
       else nupd (t_nodes T) (Some (f_id g)) (set_c2 (Some (bid sib)))) = Ok ns1).
    { subst ns1. unfold point_to. destruct (f_left g).
      - rewrite decide_True by done. by rewrite nupd_ok.
      - rewrite decide_False; [by rewrite nupd_ok|]. rewrite Hg1. intros [= Heq].
        apply Hpc. rewrite <- Heq. simpl. right. apply elem_of_app. left. apply bid_ids. }
    rewrite Hns1. cbn [mbind res_bind].
    assert (Hl1 : bid sib < length ns1) by (subst ns1; by rewrite alter_length).
    upds. change (alter (set_link (Some (f_id g))) (bid sib) ns1) with ns2.
    change (Tree (t_root T) ns2 (t_free T)) with T2. rewrite HT3. cbn [mbind res_bind].
    assert (Hrepg : rep (t_nodes T3) (top c) (plug1 g sib)).
    { destruct Hrc3 as (nf & Hnf & Hlf & Hf1 & Hf2 & Hsf & Hrc3). unfold plug1.
      destruct (f_left g); exists nf; done. }
    assert (Hrcg : rep_ctx (t_nodes T3) c (f_id g)).
    { by destruct Hrc3 as (nf & Hnf & Hlf & Hf1 & Hf2 & Hsf & Hrc3). }
    assert (Hfg : fit (t_nodes T3) (f_sib g)) by (apply Hfc3; by left).
    assert (Hfc4 : fit_ctx (t_nodes T3) c) by (intros h Hh; apply Hfc3; by right).
    assert (Hpi : ids (plug (g :: c) sib) ≡ₚ ids sib ++ cids (g :: c)).
    { rewrite ids_plug. by rewrite Permutation_app_comm. }
    assert (Hnd4 : NoDup (cids c ++ ids (plug1 g sib))).
    { rewrite <- ids_plug. change (plug c (plug1 g sib)) with (plug (g :: c) sib). rewrite Hpi.
      apply NoDup_app. done. }
    assert (Hfuel : length c < length (t_nodes T3)).
    { pose proof (cids_length (g :: c)) as Hcl. rewrite (pst_len _ _ _ _ P3), !app_length.
      change (length (g :: c)) with (S (length c)) in Hcl. lia. }
    assert (Hr3 : t_root T3 = Some (croot c (f_id g))).
    { rewrite Hroot3. subst root2. rewrite Hroot. done. }
    assert (Hex : ∃ T' t', refit (length (t_nodes T3)) T3 (Some (f_id g)) = Ok T' ∧
       refitted T3 (plug c (plug1 g sib)) T' t').
    { unfold plug1 in *. destruct (f_left g); by apply refit_spec. }
    destruct Hex as (T' & t' & HT' & HR). rewrite HT'.
    change (plug c (plug1 g sib)) with (plug (g :: c) sib) in HR.
    exists T', (Some t'), (p :: fc). split; [done|]. split; [|split].
    + eapply tst_refitted; [|exact HR]. 
      eapply pst_change; [exact P3|done|done|by rewrite Hpi|done|]. intros y Hy. by apply P3.
    + simpl. rewrite (rf_leaves _ _ _ _ _ HR), Hlv. done.
    + intros i n Hi Hn. rewrite Hlv in Hi. destruct (Hleaf3 i n Hi Hn) as (n3 & Hn3 & Hs).
      apply elem_of_cons in Hi as [->|Hi].
      * exists n3. split; [|done]. rewrite (rf_same _ _ _ _ _ HR); [done|]. rewrite Hpi.
        by intros [?|?]%elem_of_app.
      * destruct (rf_leaf _ _ _ _ _ HR i n3 Hi Hn3) as (n4 & Hn4 & Hs4). exists n4. split; [done|].
        unfold same_leaf in *. destruct Hs as (? & ? & ?), Hs4 as (? & ? & ?). split_and!; congruence.
Qed.
End proofs.

(** Representation of a dynamic_tree by an inductive tree; rotations and refit. *)
From Verif Require Import Outcome Chain TreeModel.

Inductive bt := L (i : nat) | N (i : nat) (l r : bt).
Definition bid (t : bt) : nat := match t with L i => i | N i _ _ => i end.
Fixpoint ids (t : bt) : list nat := match t with L i => [i] | N i l r => i :: ids l ++ ids r end.
Fixpoint leaves (t : bt) : list nat := match t with L i => [i] | N _ l r => leaves l ++ leaves r end.

(** One-hole contexts, innermost frame first: parent id, whether the hole is
    [child1], and the sibling. *)
Record frame := F { f_id : nat; f_left : bool; f_sib : bt }.
Definition plug1 (f : frame) (t : bt) : bt :=
  if f_left f then N (f_id f) t (f_sib f) else N (f_id f) (f_sib f) t.
Definition plug (c : list frame) (t : bt) : bt := foldl (λ t f, plug1 f t) t c.
Definition top (c : list frame) : option nat := f_id <$> head c.
Fixpoint croot (c : list frame) (i : nat) : nat :=
  match c with [] => i | f :: c => croot c (f_id f) end.
Definition cids (c : list frame) : list nat := c ≫= λ f, f_id f :: ids (f_sib f).
Definition cleaves (c : list frame) : list nat := c ≫= λ f, leaves (f_sib f).

Lemma bid_ids t : bid t ∈ ids t.
Proof. destruct t; simpl; set_solver. Qed.
Lemma leaves_ids t i : i ∈ leaves t → i ∈ ids t.
Proof. induction t as [|j l IHl r IHr]; simpl; [done|]. rewrite elem_of_cons, !elem_of_app. tauto. Qed.
Lemma bid_plug c t : bid (plug c t) = croot c (bid t).
Proof.
  revert t. induction c as [|f c IH]; intros t; [done|]. simpl. rewrite IH.
  unfold plug1. by destruct (f_left f).
Qed.
Lemma ids_plug c t : ids (plug c t) ≡ₚ cids c ++ ids t.
Proof.
  revert t. induction c as [|f c IH]; intros t; [done|]. simpl. rewrite IH.
  transitivity ((f_id f :: ids (f_sib f) ++ ids t) ++ cids c).
  - rewrite Permutation_app_comm. apply Permutation_app_tail.
    unfold plug1. destruct (f_left f); simpl; [|done]. constructor. apply Permutation_app_comm.
  - simpl. constructor. rewrite <- !app_assoc. apply Permutation_app_head, Permutation_app_comm.
Qed.
Lemma leaves_plug c t : leaves (plug c t) ≡ₚ cleaves c ++ leaves t.
Proof.
  revert t. induction c as [|f c IH]; intros t; [done|]. simpl. rewrite IH.
  transitivity ((leaves (f_sib f) ++ leaves t) ++ cleaves c).
  - rewrite Permutation_app_comm. apply Permutation_app_tail.
    unfold plug1. destruct (f_left f); simpl; [|done]. apply Permutation_app_comm.
  - rewrite <- !app_assoc. apply Permutation_app_head, Permutation_app_comm.
Qed.

Section reps.
Context {box : Type}.
Notation tnode := (tnode box).
Notation tree := (tree box).
Implicit Types ns : list tnode.

(** [t] is stored in the array with parent [par]. *)
Fixpoint rep ns (par : option nat) (t : bt) : Prop :=
  match t with
  | L i => ∃ n, ns !! i = Some n ∧ tn_link n = par ∧ tn_c1 n = None
  | N i l r => ∃ n, ns !! i = Some n ∧ tn_link n = par ∧
      tn_c1 n = Some (bid l) ∧ tn_c2 n = Some (bid r) ∧ rep ns (Some i) l ∧ rep ns (Some i) r
  end.

Fixpoint rep_ctx ns (c : list frame) (i : nat) : Prop :=
  match c with
  | [] => True
  | f :: c => ∃ n, ns !! f_id f = Some n ∧ tn_link n = top c ∧
      tn_c1 n = Some (if f_left f then i else bid (f_sib f)) ∧
      tn_c2 n = Some (if f_left f then bid (f_sib f) else i) ∧
      rep ns (Some (f_id f)) (f_sib f) ∧ rep_ctx ns c (f_id f)
  end.

Lemma rep_plug ns c t : rep ns None (plug c t) ↔ rep_ctx ns c (bid t) ∧ rep ns (top c) t.
Proof.
  revert t. induction c as [|f c IH]; intros t; simpl; [tauto|].
  rewrite IH. unfold plug1. destruct (f_left f); simpl; naive_solver.
Qed.

Lemma rep_ext ns ns' par t : (∀ i, i ∈ ids t → ns' !! i = ns !! i) → rep ns par t → rep ns' par t.
Proof.
  revert par. induction t as [i|i l IHl r IHr]; intros par He; simpl in *.
  - intros (n & Hn & H). exists n. rewrite He; [done|]. by apply elem_of_list_singleton.
  - intros (n & Hn & ? & ? & ? & ? & ?). exists n. rewrite He by set_solver. split_and!; try done.
    + apply IHl; [|done]. set_solver.
    + apply IHr; [|done]. set_solver.
Qed.

Lemma rep_is_Some ns par t i : rep ns par t → i ∈ ids t → is_Some (ns !! i).
Proof.
  revert par. induction t as [j|j l IHl r IHr]; intros par; simpl.
  - intros (n & Hn & _) ->%elem_of_list_singleton. by eexists.
  - intros (n & Hn & _ & _ & _ & Hl & Hr) [->|Hi]%elem_of_cons; [by eexists|].
    apply elem_of_app in Hi as [Hi|Hi]; eauto.
Qed.

(** Only the link of the subtree's root changes. *)
Lemma rep_relink ns ns' par par' t :
  (∀ i, i ∈ ids t → i ≠ bid t → ns' !! i = ns !! i) → ns' !! bid t = set_link par' <$> ns !! bid t →
  NoDup (ids t) → rep ns par t → rep ns' par' t.
Proof.
  destruct t as [i|i l r]; simpl; intros He Hb Hnd.
  - intros (n & Hn & Hl & Hc). rewrite Hn in Hb. exists (set_link par' n). done.
  - intros (n & Hn & ? & ? & ? & Hl & Hr). rewrite Hn in Hb. exists (set_link par' n).
    apply NoDup_cons in Hnd as [Hi Hnd]. split_and!; try done.
    + eapply rep_ext; [|done]. intros j Hj. apply He; set_solver.
    + eapply rep_ext; [|done]. intros j Hj. apply He; set_solver.
Qed.

Lemma rep_ctx_ext ns ns' c i : (∀ i, i ∈ cids c → ns' !! i = ns !! i) → rep_ctx ns c i → rep_ctx ns' c i.
Proof.
  revert i. induction c as [|f c IH]; intros i He; simpl in *; [done|].
  intros (n & Hn & ? & ? & ? & ? & ?). exists n.
  rewrite He by (simpl; set_solver). split_and!; try done.
  - eapply rep_ext; [|done]. intros j Hj. apply He. simpl. set_solver.
  - apply IH; [|done]. intros j Hj. apply He. simpl. set_solver.
Qed.

Lemma top_cids c i : top c = Some i → i ∈ cids c.
Proof. destruct c as [|f c]; simpl; [done|]. unfold top. simpl. intros. simplify_eq. set_solver. Qed.

(** ** Executing array updates *)
Lemma nget_ok ns i n : ns !! i = Some n → nget ns (Some i) = Ok n.
Proof. intros H. simpl. by rewrite H. Qed.

Lemma nupd_ok ns i (f : tnode → tnode) : i < length ns → nupd ns (Some i) f = Ok (alter f i ns).
Proof. intros H. simpl. by rewrite decide_True. Qed.

Lemma lookup_alter_eq ns i f n : ns !! i = Some n → alter f i ns !! i = Some (f n).
Proof. intros H. by rewrite list_lookup_alter, H. Qed.

(** Pointing the parent at another child. *)
Lemma replace_child_spec (T : tree) c a b :
  rep_ctx (t_nodes T) c a → a ∉ cids c → NoDup (cids c) →
  (t_root T = Some (croot c a)) →
  ∃ T', replace_child T (top c) a b = Ok T' ∧ rep_ctx (t_nodes T') c b ∧
    t_root T' = Some (croot c b) ∧ t_free T' = t_free T ∧
    length (t_nodes T') = length (t_nodes T) ∧
    (∀ i, top c ≠ Some i → t_nodes T' !! i = t_nodes T !! i).
Proof.
  destruct c as [|f c]; intros Hr Ha Hnd Hroot.
  - eexists. split; [done|]. done.
  - destruct Hr as (n & Hn & Hl & H1 & H2 & Hs & Hr). simpl in Hnd, Ha.
    apply NoDup_cons in Hnd as [Hfi Hnd].
    unfold top, replace_child. simpl.
    rewrite Hn. simpl.
    assert (Hlt : f_id f < length (t_nodes T)) by (by eapply lookup_lt_Some).
    assert (Hrest : ∀ g, ∀ j, j ≠ f_id f → alter g (f_id f) (t_nodes T) !! j = t_nodes T !! j).
    { intros g j Hj. by rewrite list_lookup_alter_ne. }
    destruct (f_left f) eqn:Hleft; simpl in *.
    + rewrite decide_True by done. rewrite decide_True by done. simpl.
      eexists. split; [done|]. simpl. split_and!.
      * exists (set_c1 (Some b) n). rewrite (lookup_alter_eq _ _ _ _ Hn). split_and!; try done.
        -- eapply rep_ext; [|done]. intros j Hj. apply Hrest. set_solver.
        -- eapply rep_ctx_ext; [|done]. intros j Hj. apply Hrest. set_solver.
      * done.
      * done.
      * by rewrite alter_length.
      * intros j Hj. apply Hrest. congruence.
    + assert (Hne : bid (f_sib f) ≠ a).
      { intros <-. apply Ha. pose proof (bid_ids (f_sib f)). set_solver. }
      rewrite decide_False by congruence. rewrite bool_decide_true by done. simpl.
      rewrite decide_True by done. simpl.
      eexists. split; [done|]. simpl. split_and!.
      * exists (set_c2 (Some b) n). rewrite (lookup_alter_eq _ _ _ _ Hn). split_and!; try done.
        -- eapply rep_ext; [|done]. intros j Hj. apply Hrest. set_solver.
        -- eapply rep_ctx_ext; [|done]. intros j Hj. apply Hrest. set_solver.
      * done.
      * done.
      * by rewrite alter_length.
      * intros j Hj. apply Hrest. congruence.
Qed.

(** Same leaf up to its parent link. *)
Definition same_leaf (n n' : tnode) : Prop :=
  tn_c1 n' = tn_c1 n ∧ tn_c2 n' = tn_c2 n ∧ tn_box n' = tn_box n.

Lemma rep_root ns par t : rep ns par t → ∃ n, ns !! bid t = Some n ∧ tn_link n = par.
Proof.
  clear. destruct t as [i|i l r]; simpl.
  - intros (n & Hn & Hl & _). eauto.
  - intros (n & Hn & Hl & _). eauto.
Qed.
End reps.

Section fits.
Context {box : Type} (sub : box → box → Prop).
Notation tnode := (tnode box).
Notation tree := (tree box).
Implicit Types ns : list tnode.

(** Boxes enclose those below and heights are exact. *)
Fixpoint fit ns (t : bt) : Prop :=
  match t with
  | L i => ∃ n, ns !! i = Some n ∧ tn_h n = 0%Z
  | N i l r => fit ns l ∧ fit ns r ∧ ∃ n nl nr,
      ns !! i = Some n ∧ ns !! bid l = Some nl ∧ ns !! bid r = Some nr ∧
      tn_h n = (Z.max (tn_h nl) (tn_h nr) + 1)%Z ∧
      sub (tn_box nl) (tn_box n) ∧ sub (tn_box nr) (tn_box n)
  end.

Definition fit_ctx ns (c : list frame) : Prop := ∀ f, f ∈ c → fit ns (f_sib f).

Lemma fit_plug_sibs ns c t : fit ns (plug c t) → fit_ctx ns c ∧ fit ns t.
Proof.
  revert t. induction c as [|f c IH]; intros t Hf; simpl in *.
  { split; [|done]. intros f Hin. by apply elem_of_nil in Hin. }
  apply IH in Hf as [Hc Hf]. unfold plug1 in Hf.
  destruct (f_left f); simpl in Hf; destruct Hf as (Hl & Hr & _); (split; [|done]);
    intros g [->|Hg]%elem_of_cons; auto.
Qed.

Lemma fit_ext ns ns' t :
  (∀ i, i ∈ ids t → ∃ n n', ns !! i = Some n ∧ ns' !! i = Some n' ∧ tn_h n' = tn_h n ∧ tn_box n' = tn_box n) →
  fit ns t → fit ns' t.
Proof.
  induction t as [i|i l IHl r IHr]; intros He; simpl in *.
  - intros (n & Hn & H). destruct (He i) as (n1 & n2 & H1 & H2 & Hh & _); [by apply elem_of_list_singleton|].
    exists n2. split; [done|]. congruence.
  - intros (Hl & Hr & n & nl & nr & Hn & Hnl & Hnr & Hh & Hbl & Hbr).
    split; [apply IHl; [|done]; set_solver|]. split; [apply IHr; [|done]; set_solver|].
    destruct (He i) as (m1 & m2 & H1 & H2 & Hh1 & Hb1); [set_solver|].
    destruct (He (bid l)) as (m3 & m4 & H3 & H4 & Hh2 & Hb2); [pose proof (bid_ids l); set_solver|].
    destruct (He (bid r)) as (m5 & m6 & H5 & H6 & Hh3 & Hb3); [pose proof (bid_ids r); set_solver|].
    exists m2, m4, m6. simplify_eq. rewrite Hh1, Hh2, Hh3, Hb1, Hb2, Hb3. done.
Qed.

Lemma fit_same ns ns' par t :
  (∀ i, i ∈ ids t → ns' !! i = ns !! i) → rep ns par t → fit ns t → fit ns' t.
Proof.
  intros He Hr. apply fit_ext. intros i Hi. destruct (rep_is_Some _ _ _ _ Hr Hi) as [n Hn].
  exists n, n. rewrite He by done. done.
Qed.

Lemma fit_relink ns ns' par par' t :
  (∀ i, i ∈ ids t → i ≠ bid t → ns' !! i = ns !! i) → ns' !! bid t = set_link par' <$> ns !! bid t →
  rep ns par t → fit ns t → fit ns' t.
Proof.
  intros He Hb Hr. apply fit_ext. intros i Hi. destruct (rep_is_Some _ _ _ _ Hr Hi) as [n Hn].
  destruct (decide (i = bid t)) as [->|Hne].
  - exists n, (set_link par' n). rewrite Hb, Hn. done.
  - exists n, n. rewrite He by done. done.
Qed.

Lemma fit_ctx_same ns ns' c i :
  (∀ f i, f ∈ c → i ∈ ids (f_sib f) → ns' !! i = ns !! i) → rep_ctx ns c i → fit_ctx ns c → fit_ctx ns' c.
Proof.
  revert i. induction c as [|f c IH]; intros i He Hr Hf g Hg; [by apply elem_of_nil in Hg|].
  destruct Hr as (n & _ & _ & _ & _ & Hs & Hr). apply elem_of_cons in Hg as [->|Hg].
  - eapply fit_same; [|done|]; [|apply Hf; set_solver]. intros j Hj. eapply He; [|done]. set_solver.
  - eapply IH; [|done| |done]; [|intros h Hh; apply Hf; set_solver].
    intros h j Hh Hj. eapply He; [|done]. set_solver.
Qed.
End fits.

Section proofs.
Context {box : Type} (enclose : box → box → box) (sub : box → box → Prop).
Context (enclose_l : ∀ a b, sub a (enclose a b)) (enclose_r : ∀ a b, sub b (enclose a b)).
Notation tnode := (tnode box).
Notation tree := (tree box).
Implicit Types ns : list tnode.

Notation fit := (fit sub).
Notation fit_ctx := (fit_ctx sub).

(** What one balancing step (or none) does to the subtree in focus. *)
Record balanced (T : tree) (c : list frame) (t : bt) (T' : tree) (u : bt) : Prop := {
  bl_rep : rep (t_nodes T') (top c) u;
  bl_ctx : rep_ctx (t_nodes T') c (bid u);
  bl_root : t_root T' = Some (croot c (bid u));
  bl_free : t_free T' = t_free T;
  bl_len : length (t_nodes T') = length (t_nodes T);
  bl_ids : ids u ≡ₚ ids t;
  bl_leaves : leaves u ≡ₚ leaves t;
  bl_leaf : ∀ i n, i ∈ leaves t → t_nodes T !! i = Some n →
    ∃ n', t_nodes T' !! i = Some n' ∧ same_leaf n n';
  bl_same : ∀ i, i ∉ ids t → top c ≠ Some i → t_nodes T' !! i = t_nodes T !! i;
  bl_fit : ∃ a l r, u = N a l r ∧ fit (t_nodes T') l ∧ fit (t_nodes T') r
}.

Ltac upds := rewrite nupd_ok by (rewrite ?alter_length; done); cbn [mbind res_bind].
Ltac look := repeat (first [ rewrite list_lookup_alter | rewrite list_lookup_alter_ne by congruence ]).

(** The rotation, given the ids involved: [c] goes up, [a] goes down, [down]
    moves from [c] to [a]. *)
Lemma rotate_c_exec (T : tree) (cx : list frame) a b c f g nA nB nC nF nG :
  t_nodes T !! a = Some nA → t_nodes T !! c = Some nC →
  t_nodes T !! f = Some nF → t_nodes T !! g = Some nG →
  tn_link nA = top cx → tn_c1 nC = Some f → tn_c2 nC = Some g →
  rep_ctx (t_nodes T) cx a → t_root T = Some (croot cx a) →
  NoDup (a :: c :: f :: g :: cids cx) →
  ∃ T' up down nUp nDown,
    ((up, down, nUp, nDown) = (f, g, nF, nG) ∨ (up, down, nUp, nDown) = (g, f, nG, nF)) ∧
    rotate_c enclose T a b c nA nB nC = Ok (T', c) ∧
    t_nodes T' !! c = Some (TN (top cx) (Some a) (Some up)
      (enclose (enclose (tn_box nB) (tn_box nDown)) (tn_box nUp))
      (Z.max (Z.max (tn_h nB) (tn_h nDown) + 1) (tn_h nUp) + 1)%Z) ∧
    t_nodes T' !! a = Some (TN (Some c) (tn_c1 nA) (Some down)
      (enclose (tn_box nB) (tn_box nDown)) (Z.max (tn_h nB) (tn_h nDown) + 1)%Z) ∧
    t_nodes T' !! down = Some (set_link (Some a) nDown) ∧
    (∀ i, i ≠ a → i ≠ c → i ≠ down → top cx ≠ Some i → t_nodes T' !! i = t_nodes T !! i) ∧
    rep_ctx (t_nodes T') cx c ∧ t_root T' = Some (croot cx c) ∧ t_free T' = t_free T ∧
    length (t_nodes T') = length (t_nodes T).
Proof.
  intros Ha Hc Hf Hg Hlk H1 H2 Hrc Hroot Hnd.
  assert (a < length (t_nodes T)) by (by eapply lookup_lt_Some).
  assert (c < length (t_nodes T)) by (by eapply lookup_lt_Some).
  assert (f < length (t_nodes T)) by (by eapply lookup_lt_Some).
  assert (g < length (t_nodes T)) by (by eapply lookup_lt_Some).
  apply NoDup_cons in Hnd as [Ha' Hnd]. apply NoDup_cons in Hnd as [Hc' Hnd].
  apply NoDup_cons in Hnd as [Hf' Hnd]. apply NoDup_cons in Hnd as [Hg' Hnd].
  apply not_elem_of_cons in Ha' as [Hac Ha']. apply not_elem_of_cons in Ha' as [Haf Ha'].
  apply not_elem_of_cons in Ha' as [Hag Ha']. apply not_elem_of_cons in Hc' as [Hcf Hc'].
  apply not_elem_of_cons in Hc' as [Hcg Hc']. apply not_elem_of_cons in Hf' as [Hfg Hf'].
  assert (Hta : top cx ≠ Some a) by (by intros ?%top_cids).
  assert (Htc : top cx ≠ Some c) by (by intros ?%top_cids).
  assert (Htf : top cx ≠ Some f) by (by intros ?%top_cids).
  assert (Htg : top cx ≠ Some g) by (by intros ?%top_cids).
  unfold rotate_c. rewrite H1, H2. cbn [opt_res mbind res_bind].
  rewrite (nget_ok _ _ _ Hf), (nget_ok _ _ _ Hg). cbn [mbind res_bind].
  do 3 upds.
  set (ns1 := alter _ a _). rewrite Hlk.
  destruct (replace_child_spec (Tree (t_root T) ns1 (t_free T)) cx a c) as (T1 & -> & Hrc1 & Hr1 & Hf1 & Hl1 & Hs1);
    [|done|done|done|].
  { eapply rep_ctx_ext; [|exact Hrc]. intros i Hi. subst ns1. simpl.
    assert (i ≠ a) by congruence. assert (i ≠ c) by congruence. by look. }
  cbn [mbind res_bind t_nodes t_root t_free] in *.
  assert (Hlen : length (t_nodes T1) = length (t_nodes T)).
  { rewrite Hl1. subst ns1. by rewrite !alter_length. }
  assert (HA : t_nodes T1 !! a = Some (set_link (Some c) nA)).
  { rewrite Hs1 by done. subst ns1. look. by rewrite Ha. }
  assert (HC : t_nodes T1 !! c = Some (set_link (top cx) (set_c1 (Some a) nC))).
  { rewrite Hs1 by done. subst ns1. rewrite Hlk. look. by rewrite Hc. }
  assert (HO : ∀ i, i ≠ a → i ≠ c → top cx ≠ Some i → t_nodes T1 !! i = t_nodes T !! i).
  { intros i ? ? ?. rewrite Hs1 by done. subst ns1. by look. }
  assert (HF : t_nodes T1 !! f = Some nF) by (by rewrite HO by congruence).
  assert (HG : t_nodes T1 !! g = Some nG) by (by rewrite HO by congruence).
  clearbody ns1.
  rewrite <- Hlen in *.
  assert (Hcore : ∀ up down nUp nDown, up ≠ down → up ≠ a → up ≠ c → down ≠ a → down ≠ c →
    up < length (t_nodes T1) → down < length (t_nodes T1) →
    top cx ≠ Some up → top cx ≠ Some down → down ∉ cids cx →
    t_nodes T1 !! down = Some nDown →
    ∃ T', (ns ← nupd (t_nodes T1) (Some c) (set_c2 (Some up));
     ns ← nupd ns (Some a) (set_c2 (Some down));
     ns ← nupd ns (Some down) (set_link (Some a));
     ns ← nupd ns (Some a) (set_box (enclose (tn_box nB) (tn_box nDown)));
     ns ← nupd ns (Some c) (set_box (enclose (enclose (tn_box nB) (tn_box nDown)) (tn_box nUp)));
     ns ← nupd ns (Some a) (set_h (Z.max (tn_h nB) (tn_h nDown) + 1)%Z);
     ns ← nupd ns (Some c) (set_h (Z.max (Z.max (tn_h nB) (tn_h nDown) + 1) (tn_h nUp) + 1)%Z);
     Ok (Tree (t_root T1) ns (t_free T1), c)) = Ok (T', c) ∧
    t_nodes T' !! c = Some (TN (top cx) (Some a) (Some up)
      (enclose (enclose (tn_box nB) (tn_box nDown)) (tn_box nUp))
      (Z.max (Z.max (tn_h nB) (tn_h nDown) + 1) (tn_h nUp) + 1)%Z) ∧
    t_nodes T' !! a = Some (TN (Some c) (tn_c1 nA) (Some down)
      (enclose (tn_box nB) (tn_box nDown)) (Z.max (tn_h nB) (tn_h nDown) + 1)%Z) ∧
    t_nodes T' !! down = Some (set_link (Some a) nDown) ∧
    (∀ i, i ≠ a → i ≠ c → i ≠ down → top cx ≠ Some i → t_nodes T' !! i = t_nodes T !! i) ∧
    rep_ctx (t_nodes T') cx c ∧ t_root T' = Some (croot cx c) ∧ t_free T' = t_free T ∧
    length (t_nodes T') = length (t_nodes T1)).
  { intros up down nUp nDown Hud Hua Huc Hda Hdc Hul Hdl Htu Htd Hdx Hdn.
    do 7 upds. eexists. split; [done|]. cbn [t_nodes t_root t_free]. split_and!.
    - look. by rewrite HC.
    - look. by rewrite HA.
    - look. by rewrite Hdn.
    - intros i ? ? ? ?. look. by apply HO.
    - eapply rep_ctx_ext; [|exact Hrc1]. intros i Hi.
      assert (i ≠ a) by congruence. assert (i ≠ c) by congruence. assert (i ≠ down) by congruence. by look.
    - done.
    - done.
    - by rewrite !alter_length. }
  destruct (decide (tn_h nF > tn_h nG)%Z).
  - destruct (Hcore f g nF nG) as (T' & HT' & Hrest); try congruence. exists T', f, g, nF, nG. split; [auto|]. done.
  - destruct (Hcore g f nG nF) as (T' & HT' & Hrest); try congruence. exists T', g, f, nG, nF. split; [auto|]. done.
Qed.

Lemma rotate_b_exec (T : tree) (cx : list frame) a b c f g nA nB nC nF nG :
  t_nodes T !! a = Some nA → t_nodes T !! b = Some nB →
  t_nodes T !! f = Some nF → t_nodes T !! g = Some nG →
  tn_link nA = top cx → tn_c1 nB = Some f → tn_c2 nB = Some g →
  rep_ctx (t_nodes T) cx a → t_root T = Some (croot cx a) →
  NoDup (a :: b :: f :: g :: cids cx) →
  ∃ T' up down nUp nDown,
    ((up, down, nUp, nDown) = (f, g, nF, nG) ∨ (up, down, nUp, nDown) = (g, f, nG, nF)) ∧
    rotate_b enclose T a b c nA nB nC = Ok (T', b) ∧
    t_nodes T' !! b = Some (TN (top cx) (Some a) (Some up)
      (enclose (enclose (tn_box nC) (tn_box nDown)) (tn_box nUp))
      (Z.max (Z.max (tn_h nC) (tn_h nDown) + 1) (tn_h nUp) + 1)%Z) ∧
    t_nodes T' !! a = Some (TN (Some b) (Some down) (tn_c2 nA)
      (enclose (tn_box nC) (tn_box nDown)) (Z.max (tn_h nC) (tn_h nDown) + 1)%Z) ∧
    t_nodes T' !! down = Some (set_link (Some a) nDown) ∧
    (∀ i, i ≠ a → i ≠ b → i ≠ down → top cx ≠ Some i → t_nodes T' !! i = t_nodes T !! i) ∧
    rep_ctx (t_nodes T') cx b ∧ t_root T' = Some (croot cx b) ∧ t_free T' = t_free T ∧
    length (t_nodes T') = length (t_nodes T).
Proof.
  intros Ha Hb Hf Hg Hlk H1 H2 Hrc Hroot Hnd.
  assert (a < length (t_nodes T)) by (by eapply lookup_lt_Some).
  assert (b < length (t_nodes T)) by (by eapply lookup_lt_Some).
  assert (f < length (t_nodes T)) by (by eapply lookup_lt_Some).
  assert (g < length (t_nodes T)) by (by eapply lookup_lt_Some).
  apply NoDup_cons in Hnd as [Ha' Hnd]. apply NoDup_cons in Hnd as [Hb' Hnd].
  apply NoDup_cons in Hnd as [Hf' Hnd]. apply NoDup_cons in Hnd as [Hg' Hnd].
  apply not_elem_of_cons in Ha' as [Hab Ha']. apply not_elem_of_cons in Ha' as [Haf Ha'].
  apply not_elem_of_cons in Ha' as [Hag Ha']. apply not_elem_of_cons in Hb' as [Hbf Hb'].
  apply not_elem_of_cons in Hb' as [Hbg Hb']. apply not_elem_of_cons in Hf' as [Hfg Hf'].
  assert (Hta : top cx ≠ Some a) by (by intros ?%top_cids).
  assert (Htb : top cx ≠ Some b) by (by intros ?%top_cids).
  assert (Htf : top cx ≠ Some f) by (by intros ?%top_cids).
  assert (Htg : top cx ≠ Some g) by (by intros ?%top_cids).
  unfold rotate_b. rewrite H1, H2. cbn [opt_res mbind res_bind].
  rewrite (nget_ok _ _ _ Hf), (nget_ok _ _ _ Hg). cbn [mbind res_bind].
  do 3 upds.
  set (ns1 := alter _ a _). rewrite Hlk.
  destruct (replace_child_spec (Tree (t_root T) ns1 (t_free T)) cx a b) as (T1 & -> & Hrc1 & Hr1 & Hf1 & Hl1 & Hs1);
    [|done|done|done|].
  { eapply rep_ctx_ext; [|exact Hrc]. intros i Hi. subst ns1. simpl.
    assert (i ≠ a) by congruence. assert (i ≠ b) by congruence. by look. }
  cbn [mbind res_bind t_nodes t_root t_free] in *.
  assert (Hlen : length (t_nodes T1) = length (t_nodes T)).
  { rewrite Hl1. subst ns1. by rewrite !alter_length. }
  assert (HA : t_nodes T1 !! a = Some (set_link (Some b) nA)).
  { rewrite Hs1 by done. subst ns1. look. by rewrite Ha. }
  assert (HB : t_nodes T1 !! b = Some (set_link (top cx) (set_c1 (Some a) nB))).
  { rewrite Hs1 by done. subst ns1. rewrite Hlk. look. by rewrite Hb. }
  assert (HO : ∀ i, i ≠ a → i ≠ b → top cx ≠ Some i → t_nodes T1 !! i = t_nodes T !! i).
  { intros i ? ? ?. rewrite Hs1 by done. subst ns1. by look. }
  assert (HF : t_nodes T1 !! f = Some nF) by (by rewrite HO by congruence).
  assert (HG : t_nodes T1 !! g = Some nG) by (by rewrite HO by congruence).
  clearbody ns1.
  rewrite <- Hlen in *.
  assert (Hcore : ∀ up down nUp nDown, up ≠ down → up ≠ a → up ≠ b → down ≠ a → down ≠ b →
    up < length (t_nodes T1) → down < length (t_nodes T1) →
    top cx ≠ Some up → top cx ≠ Some down → down ∉ cids cx →
    t_nodes T1 !! down = Some nDown →
    ∃ T', (ns ← nupd (t_nodes T1) (Some b) (set_c2 (Some up));
     ns ← nupd ns (Some a) (set_c1 (Some down));
     ns ← nupd ns (Some down) (set_link (Some a));
     ns ← nupd ns (Some a) (set_box (enclose (tn_box nC) (tn_box nDown)));
     ns ← nupd ns (Some b) (set_box (enclose (enclose (tn_box nC) (tn_box nDown)) (tn_box nUp)));
     ns ← nupd ns (Some a) (set_h (Z.max (tn_h nC) (tn_h nDown) + 1)%Z);
     ns ← nupd ns (Some b) (set_h (Z.max (Z.max (tn_h nC) (tn_h nDown) + 1) (tn_h nUp) + 1)%Z);
     Ok (Tree (t_root T1) ns (t_free T1), b)) = Ok (T', b) ∧
    t_nodes T' !! b = Some (TN (top cx) (Some a) (Some up)
      (enclose (enclose (tn_box nC) (tn_box nDown)) (tn_box nUp))
      (Z.max (Z.max (tn_h nC) (tn_h nDown) + 1) (tn_h nUp) + 1)%Z) ∧
    t_nodes T' !! a = Some (TN (Some b) (Some down) (tn_c2 nA)
      (enclose (tn_box nC) (tn_box nDown)) (Z.max (tn_h nC) (tn_h nDown) + 1)%Z) ∧
    t_nodes T' !! down = Some (set_link (Some a) nDown) ∧
    (∀ i, i ≠ a → i ≠ b → i ≠ down → top cx ≠ Some i → t_nodes T' !! i = t_nodes T !! i) ∧
    rep_ctx (t_nodes T') cx b ∧ t_root T' = Some (croot cx b) ∧ t_free T' = t_free T ∧
    length (t_nodes T') = length (t_nodes T1)).
  { intros up down nUp nDown Hud Hua Huc Hda Hdc Hul Hdl Htu Htd Hdx Hdn.
    do 7 upds. eexists. split; [done|]. cbn [t_nodes t_root t_free]. split_and!.
    - look. by rewrite HB.
    - look. by rewrite HA.
    - look. by rewrite Hdn.
    - intros i ? ? ? ?. look. by apply HO.
    - eapply rep_ctx_ext; [|exact Hrc1]. intros i Hi.
      assert (i ≠ a) by congruence. assert (i ≠ b) by congruence. assert (i ≠ down) by congruence. by look.
    - done.
    - done.
    - by rewrite !alter_length. }
  destruct (decide (tn_h nF > tn_h nG)%Z).
  - destruct (Hcore f g nF nG) as (T' & HT' & Hrest); try congruence. exists T', f, g, nF, nG. split; [auto|]. done.
  - destruct (Hcore g f nG nF) as (T' & HT' & Hrest); try congruence. exists T', g, f, nG, nF. split; [auto|]. done.
Qed.

(** Both rotations give a well-formed subtree. [S] stays below [a]; it is its
    first child iff [sl]. *)
Lemma rotated_ok (T T' : tree) cx t a x St Up Down (sl : bool) nS nUp nDown pS pD pU :
  rep (t_nodes T) pS St → rep (t_nodes T) pU Up → rep (t_nodes T) pD Down →
  pS = Some a → pU = Some x →
  fit (t_nodes T) St → fit (t_nodes T) Up → fit (t_nodes T) Down →
  ids t ≡ₚ a :: x :: ids St ++ ids Up ++ ids Down →
  leaves t ≡ₚ leaves St ++ leaves Up ++ leaves Down →
  NoDup (cids cx ++ ids t) →
  t_nodes T !! bid St = Some nS → t_nodes T !! bid Up = Some nUp → t_nodes T !! bid Down = Some nDown →
  t_nodes T' !! x = Some (TN (top cx) (Some a) (Some (bid Up))
    (enclose (enclose (tn_box nS) (tn_box nDown)) (tn_box nUp))
    (Z.max (Z.max (tn_h nS) (tn_h nDown) + 1) (tn_h nUp) + 1)%Z) →
  t_nodes T' !! a = Some (TN (Some x) (Some (if sl then bid St else bid Down))
    (Some (if sl then bid Down else bid St))
    (enclose (tn_box nS) (tn_box nDown)) (Z.max (tn_h nS) (tn_h nDown) + 1)%Z) →
  t_nodes T' !! bid Down = Some (set_link (Some a) nDown) →
  (∀ i, i ≠ a → i ≠ x → i ≠ bid Down → top cx ≠ Some i → t_nodes T' !! i = t_nodes T !! i) →
  rep_ctx (t_nodes T') cx x → t_root T' = Some (croot cx x) → t_free T' = t_free T →
  length (t_nodes T') = length (t_nodes T) →
  balanced T cx t T' (N x (if sl then N a St Down else N a Down St) Up).
Proof.
  intros HS HU HD -> -> FS FU FD Hids Hlv Hnd HnS HnU HnD Hx Ha Hdn Ho Hrc Hroot Hfree Hlen.
  rewrite Hids in Hnd. apply NoDup_app in Hnd as (_ & Hcx & Hnd).
  apply NoDup_cons in Hnd as [Hna Hnd]. apply NoDup_cons in Hnd as [Hnx Hnd].
  apply NoDup_app in Hnd as (HndS & HSx & Hnd). apply NoDup_app in Hnd as (HndU & HUx & HndD).
  apply not_elem_of_cons in Hna as [Hax Hna].
  assert (Htop : ∀ i, i ∈ a :: x :: ids St ++ ids Up ++ ids Down → top cx ≠ Some i).
  { intros i Hi Ht. apply top_cids in Ht. by apply (Hcx i). }
  assert (HoS : ∀ i, i ∈ ids St → t_nodes T' !! i = t_nodes T !! i).
  { intros i Hi. apply Ho.
    - intros ->. apply Hna. by apply elem_of_app; left.
    - intros ->. apply Hnx. by apply elem_of_app; left.
    - intros ->. apply (HSx _ Hi). apply elem_of_app; right. apply bid_ids.
    - apply Htop. do 2 (apply elem_of_cons; right). by apply elem_of_app; left. }
  assert (HoU : ∀ i, i ∈ ids Up → t_nodes T' !! i = t_nodes T !! i).
  { intros i Hi. apply Ho.
    - intros ->. apply Hna. rewrite !elem_of_app. auto.
    - intros ->. apply Hnx. rewrite !elem_of_app. auto.
    - intros ->. apply (HUx _ Hi). apply bid_ids.
    - apply Htop. rewrite !elem_of_cons, !elem_of_app. auto. }
  assert (HoD : ∀ i, i ∈ ids Down → i ≠ bid Down → t_nodes T' !! i = t_nodes T !! i).
  { intros i Hi Hne. apply Ho; [| |done|].
    - intros ->. apply Hna. rewrite !elem_of_app. auto.
    - intros ->. apply Hnx. rewrite !elem_of_app. auto.
    - apply Htop. rewrite !elem_of_cons, !elem_of_app. auto. }
  assert (HS' : rep (t_nodes T') (Some a) St) by (by eapply rep_ext).
  assert (HU' : rep (t_nodes T') (Some x) Up) by (by eapply rep_ext).
  assert (HD' : rep (t_nodes T') (Some a) Down).
  { eapply rep_relink; [exact HoD| |done|exact HD]. by rewrite HnD, Hdn. }
  assert (FS' : fit (t_nodes T') St) by (by eapply fit_same).
  assert (FU' : fit (t_nodes T') Up) by (by eapply fit_same).
  assert (FD' : fit (t_nodes T') Down).
  { eapply fit_relink; [exact HoD| |exact HD|done]. rewrite HnD, Hdn. done. }
  assert (HnS' : t_nodes T' !! bid St = Some nS) by (by rewrite HoS by apply bid_ids).
  split.
  - destruct sl; (eexists; split; [exact Hx|]; simpl; split_and!; try done; eexists; split; [exact Ha|]; done).
  - by destruct sl.
  - by destruct sl.
  - done.
  - done.
  - rewrite Hids. transitivity (x :: a :: ids St ++ ids Up ++ ids Down); [|by constructor].
    destruct sl; simpl; repeat constructor; rewrite ?app_assoc.
    + rewrite <- !app_assoc. apply Permutation_app_head, Permutation_app_comm.
    + rewrite <- app_assoc. rewrite Permutation_app_comm. by rewrite <- app_assoc.
  - rewrite Hlv. destruct sl; simpl.
    + rewrite <- !app_assoc. apply Permutation_app_head, Permutation_app_comm.
    + rewrite <- app_assoc. rewrite Permutation_app_comm. by rewrite <- app_assoc.
  - intros i n Hi Hn. rewrite Hlv, !elem_of_app in Hi.
    destruct (decide (i = bid Down)) as [->|Hne].
    { exists (set_link (Some a) nDown). rewrite Hdn. rewrite HnD in Hn. by simplify_eq. }
    exists n. split; [|done]. rewrite <- Hn.
    destruct Hi as [Hi|[Hi|Hi]]; apply leaves_ids in Hi; auto.
  - intros i Hi Ht. rewrite Hids, !elem_of_cons, !elem_of_app in Hi.
    apply Ho; [tauto|tauto| |done]. intros ->. apply Hi. pose proof (bid_ids Down). tauto.
  - exists x, (if sl then N a St Down else N a Down St), Up. split; [done|]. split; [|done].
    destruct sl; simpl; (split; [done|]; split; [done|]); eexists _, _, _; (split; [exact Ha|]).
    + split; [exact HnS'|]. split; [exact Hdn|]. simpl. eauto.
    + split; [exact Hdn|]. split; [exact HnS'|]. simpl. split; [by rewrite Z.max_comm|]. eauto.
Qed.

Lemma fit_nonneg ns t n : fit ns t → ns !! bid t = Some n → (0 ≤ tn_h n)%Z.
Proof.
  revert n. induction t as [i|i l IHl r IHr]; intros n; simpl.
  - intros (n' & Hn' & Hh) Hn. simplify_eq. lia.
  - intros (Hl & Hr & n' & nl & nr & Hn' & Hnl & Hnr & Hh & _) Hn. simplify_eq.
    specialize (IHl nl Hl Hnl). lia.
Qed.

Lemma balance_spec (T : tree) cx a l r :
  rep (t_nodes T) (top cx) (N a l r) → rep_ctx (t_nodes T) cx a →
  t_root T = Some (croot cx a) → fit (t_nodes T) l → fit (t_nodes T) r →
  NoDup (cids cx ++ ids (N a l r)) →
  ∃ T' u, balance enclose T a = Ok (T', bid u) ∧ balanced T cx (N a l r) T' u.
Proof.
  intros Hrep Hrc Hroot Fl Fr Hnd.
  assert (Hid : balanced T cx (N a l r) T (N a l r)).
  { split; try done.
    - intros i n Hi Hn. exists n. done.
    - eauto 6. }
  destruct Hrep as (nA & HA & Hlk & H1 & H2 & Hl & Hr).
  destruct (rep_root _ _ _ Hl) as (nB & HB & HBl). destruct (rep_root _ _ _ Hr) as (nC & HC & HCl).
  unfold balance. rewrite (nget_ok _ _ _ HA). cbn [mbind res_bind].
  destruct (tleaf nA || bool_decide (tn_h nA < 2)%Z); [by exists T, (N a l r)|].
  rewrite H1, H2. cbn [opt_res mbind res_bind]. rewrite (nget_ok _ _ _ HB), (nget_ok _ _ _ HC). cbn [mbind res_bind].
  pose proof (fit_nonneg _ _ _ Fl HB) as HhB. pose proof (fit_nonneg _ _ _ Fr HC) as HhC.
  destruct (decide (tn_h nC - tn_h nB > 1)%Z) as [Hb|Hb].
  - destruct r as [c|c f g].
    { exfalso. destruct Fr as (n & Hn & Hh). simpl in HC. simplify_eq. lia. }
    destruct Hr as (nC' & HC' & HlC & HC1 & HC2 & Hf & Hg). simpl in HC. simplify_eq.
    destruct (rep_root _ _ _ Hf) as (nF & HF & HFl). destruct (rep_root _ _ _ Hg) as (nG & HG & HGl).
    destruct Fr as (Ff & Fg & _).
    assert (Hnd' : NoDup (a :: c :: bid f :: bid g :: cids cx)).
    { pose proof (bid_ids f). pose proof (bid_ids g). simpl in Hnd.
      rewrite Permutation_app_comm in Hnd. simpl in Hnd.
      apply NoDup_cons in Hnd as [Ha Hnd]. rewrite <- app_assoc in Hnd. apply NoDup_app in Hnd as (_ & _ & Hnd).
      simpl in Hnd. apply NoDup_cons in Hnd as [Hc Hnd]. rewrite <- app_assoc in Hnd.
      apply NoDup_app in Hnd as (_ & Hfx & Hnd). apply NoDup_app in Hnd as (_ & Hgx & Hnd).
      assert (a ≠ c ∧ a ≠ bid f ∧ a ≠ bid g ∧ a ∉ cids cx) as (? & ? & ? & ?).
      { split_and!; intros ?; apply Ha; subst; rewrite !elem_of_app, elem_of_cons, !elem_of_app; tauto. }
      repeat (apply NoDup_cons; split); rewrite ?not_elem_of_cons; split_and?; try done.
      - intros ->. apply Hc. rewrite !elem_of_app. tauto.
      - intros ->. apply Hc. rewrite !elem_of_app. tauto.
      - intros ?. apply Hc. rewrite !elem_of_app. tauto.
      - intros He. eapply Hfx; [done|]. rewrite He. rewrite !elem_of_app. tauto.
      - intros He. eapply Hfx; [done|]. rewrite !elem_of_app. tauto.
      - by apply Hgx. }
    destruct (rotate_c_exec T cx a (bid l) c (bid f) (bid g) nA nB nC' nF nG HA HC' HF HG Hlk HC1 HC2 Hrc Hroot Hnd')
      as (T' & up & down & nUp & nDown & Hud & Hex & Hx & Ha & Hdn & Ho & Hrc' & Hroot' & Hfree & Hlen).
    simpl (bid (N c f g)). rewrite Hex. rewrite H1 in Ha.
    assert (∃ Up Down, bid Up = up ∧ bid Down = down ∧ rep (t_nodes T) (Some c) Up ∧ rep (t_nodes T) (Some c) Down ∧
      fit (t_nodes T) Up ∧ fit (t_nodes T) Down ∧ t_nodes T !! bid Up = Some nUp ∧ t_nodes T !! bid Down = Some nDown ∧
      ids f ++ ids g ≡ₚ ids Up ++ ids Down ∧ leaves f ++ leaves g ≡ₚ leaves Up ++ leaves Down)
      as (Up & Down & <- & <- & HU & HD & FU & FD & HnU & HnD & Hpi & Hpl).
    { destruct Hud as [Hud|Hud]; injection Hud as -> -> -> ->.
      - exists f, g. done.
      - exists g, f. split_and!; try done; apply Permutation_app_comm. }
    exists T', (N c (N a l Down) Up). split; [done|].
    eapply (rotated_ok T T' cx _ a c l Up Down true nB nUp nDown); try done.
    + simpl. constructor. rewrite <- Permutation_middle. constructor. by apply Permutation_app_head.
    + simpl. by apply Permutation_app_head.
  - destruct (decide (tn_h nC - tn_h nB < -1)%Z) as [Hb'|Hb']; [|by exists T, (N a l r)].
    destruct l as [c|c f g].
    { exfalso. destruct Fl as (n & Hn & Hh). simpl in HB. simplify_eq. lia. }
    destruct Hl as (nB' & HB' & HlB & HB1 & HB2 & Hf & Hg). simpl in HB. simplify_eq.
    destruct (rep_root _ _ _ Hf) as (nF & HF & HFl). destruct (rep_root _ _ _ Hg) as (nG & HG & HGl).
    destruct Fl as (Ff & Fg & _).
    assert (Hnd' : NoDup (a :: c :: bid f :: bid g :: cids cx)).
    { pose proof (bid_ids f). pose proof (bid_ids g). simpl in Hnd.
      rewrite Permutation_app_comm in Hnd. simpl in Hnd.
      apply NoDup_cons in Hnd as [Ha Hnd].
      simpl in Hnd. apply NoDup_cons in Hnd as [Hc Hnd]. rewrite <- !app_assoc in Hnd.
      apply NoDup_app in Hnd as (_ & Hfx & Hnd). apply NoDup_app in Hnd as (_ & Hgx & Hnd).
      assert (a ≠ c ∧ a ≠ bid f ∧ a ≠ bid g ∧ a ∉ cids cx) as (? & ? & ? & ?).
      { split_and!; intros ?; apply Ha; subst; rewrite !elem_of_cons, !elem_of_app; tauto. }
      repeat (apply NoDup_cons; split); rewrite ?not_elem_of_cons; split_and?; try done.
      - intros ->. apply Hc. rewrite !elem_of_app. tauto.
      - intros ->. apply Hc. rewrite !elem_of_app. tauto.
      - intros ?. apply Hc. rewrite !elem_of_app. tauto.
      - intros He. eapply Hfx; [done|]. rewrite He. rewrite !elem_of_app. tauto.
      - intros He. eapply Hfx; [done|]. rewrite !elem_of_app. tauto.
      - intros He. eapply Hgx; [done|]. rewrite !elem_of_app. tauto.
      - apply NoDup_app in Hnd as (_ & _ & Hnd). done. }
    destruct (rotate_b_exec T cx a c (bid r) (bid f) (bid g) nA nB' nC nF nG HA HB' HF HG Hlk HB1 HB2 Hrc Hroot Hnd')
      as (T' & up & down & nUp & nDown & Hud & Hex & Hx & Ha & Hdn & Ho & Hrc' & Hroot' & Hfree & Hlen).
    simpl (bid (N c f g)). rewrite Hex. rewrite H2 in Ha.
    assert (∃ Up Down, bid Up = up ∧ bid Down = down ∧ rep (t_nodes T) (Some c) Up ∧ rep (t_nodes T) (Some c) Down ∧
      fit (t_nodes T) Up ∧ fit (t_nodes T) Down ∧ t_nodes T !! bid Up = Some nUp ∧ t_nodes T !! bid Down = Some nDown ∧
      ids f ++ ids g ≡ₚ ids Up ++ ids Down ∧ leaves f ++ leaves g ≡ₚ leaves Up ++ leaves Down)
      as (Up & Down & <- & <- & HU & HD & FU & FD & HnU & HnD & Hpi & Hpl).
    { destruct Hud as [Hud|Hud]; injection Hud as -> -> -> ->.
      - exists f, g. done.
      - exists g, f. split_and!; try done; apply Permutation_app_comm. }
    exists T', (N c (N a Down r) Up). split; [done|].
    eapply (rotated_ok T T' cx _ a c r Up Down false nC nUp nDown); try done.
    + simpl. do 2 constructor. rewrite Hpi. apply Permutation_app_comm.
    + simpl. rewrite Hpl. apply Permutation_app_comm.
Qed.

(** ** refit *)
Record refitted (T : tree) (t : bt) (T' : tree) (t' : bt) : Prop := {
  rf_rep : rep (t_nodes T') None t';
  rf_fit : fit (t_nodes T') t';
  rf_root : t_root T' = Some (bid t');
  rf_free : t_free T' = t_free T;
  rf_len : length (t_nodes T') = length (t_nodes T);
  rf_ids : ids t' ≡ₚ ids t;
  rf_leaves : leaves t' ≡ₚ leaves t;
  rf_leaf : ∀ i n, i ∈ leaves t → t_nodes T !! i = Some n →
    ∃ n', t_nodes T' !! i = Some n' ∧ same_leaf n n';
  rf_same : ∀ i, i ∉ ids t → t_nodes T' !! i = t_nodes T !! i
}.

Lemma refit_none fuel (T : tree) : refit enclose fuel T None = Ok T.
Proof. by destruct fuel. Qed.

(** Recomputing box and height of the root of a subtree whose children fit. *)
Lemma refresh_ok (T : tree) par a l r n1 n2 :
  rep (t_nodes T) par (N a l r) → fit (t_nodes T) l → fit (t_nodes T) r → NoDup (ids (N a l r)) →
  t_nodes T !! bid l = Some n1 → t_nodes T !! bid r = Some n2 →
  let ns := alter (set_h (Z.max (tn_h n1) (tn_h n2) + 1)%Z) a
             (alter (set_box (enclose (tn_box n1) (tn_box n2))) a (t_nodes T)) in
  rep ns par (N a l r) ∧ fit ns (N a l r) ∧ (∀ i, i ≠ a → ns !! i = t_nodes T !! i) ∧
  length ns = length (t_nodes T).
Proof.
  intros (n & Hn & Hlk & H1 & H2 & Hl & Hr) Fl Fr Hnd Hn1 Hn2 ns.
  simpl in Hnd. apply NoDup_cons in Hnd as [Ha Hnd].
  assert (Hos : ∀ i, i ≠ a → ns !! i = t_nodes T !! i) by (intros i Hi; subst ns; by look).
  assert (Hol : ∀ i, i ∈ ids l → ns !! i = t_nodes T !! i).
  { intros i Hi. apply Hos. intros ->. apply Ha, elem_of_app. auto. }
  assert (Hor : ∀ i, i ∈ ids r → ns !! i = t_nodes T !! i).
  { intros i Hi. apply Hos. intros ->. apply Ha, elem_of_app. auto. }
  assert (Hna : ns !! a = Some (TN (tn_link n) (tn_c1 n) (tn_c2 n)
     (enclose (tn_box n1) (tn_box n2)) (Z.max (tn_h n1) (tn_h n2) + 1)%Z)).
  { subst ns. look. by rewrite Hn. }
  split_and!.
  - eexists. split; [exact Hna|]. simpl. split_and!; try done; by eapply rep_ext.
  - simpl. split; [by eapply fit_same|]. split; [by eapply fit_same|].
    eexists _, n1, n2. split; [exact Hna|]. rewrite Hol, Hor by apply bid_ids. simpl. done.
  - done.
  - subst ns. by rewrite !alter_length.
Qed.

Lemma cids_nodup_disj f cx t :
  NoDup (cids (f :: cx) ++ ids t) → NoDup (cids cx ++ ids (plug1 f t)).
Proof.
  intros H. rewrite <- ids_plug in H |- *. exact H.
Qed.

Lemma refit_spec cx : ∀ (T : tree) a l r fuel,
  rep (t_nodes T) (top cx) (N a l r) → rep_ctx (t_nodes T) cx a →
  t_root T = Some (croot cx a) → fit (t_nodes T) l → fit (t_nodes T) r → fit_ctx (t_nodes T) cx →
  NoDup (cids cx ++ ids (N a l r)) → length cx < fuel →
  ∃ T' t', refit enclose fuel T (Some a) = Ok T' ∧ refitted T (plug cx (N a l r)) T' t'.
Proof.
  induction cx as [|f cx IH]; intros T a l r fuel Hrep Hrc Hroot Fl Fr Fc Hnd Hfuel;
    (destruct fuel as [|fuel]; [lia|]); cbn [refit].
  - destruct (balance_spec T [] a l r Hrep Hrc Hroot Fl Fr Hnd) as (T1 & u & -> & B).
    destruct B as [Brep Brc Broot Bfree Blen Bids Blv Bleaf Bsame (a' & l' & r' & -> & Fl' & Fr')].
    cbn [mbind res_bind].
    pose proof Brep as (n & Hn & Hlk & H1 & H2 & Hl & Hr).
    destruct (rep_root _ _ _ Hl) as (n1 & Hn1 & _). destruct (rep_root _ _ _ Hr) as (n2 & Hn2 & _).
    assert (Hlt : a' < length (t_nodes T1)) by (by eapply lookup_lt_Some).
    simpl (bid (N a' l' r')). rewrite (nget_ok _ _ _ Hn). cbn [mbind res_bind]. rewrite H1, H2.
    rewrite !bool_decide_true by eauto. cbn [assert_ mbind res_bind].
    rewrite (nget_ok _ _ _ Hn1), (nget_ok _ _ _ Hn2). cbn [mbind res_bind]. do 2 upds.
    rewrite Hlk. simpl (top []). rewrite refit_none.
    assert (Hnd' : NoDup (ids (N a' l' r'))) by (by rewrite Bids).
    destruct (refresh_ok T1 _ a' l' r' n1 n2 Brep Fl' Fr' Hnd' Hn1 Hn2) as (Rrep & Rfit & Rsame & Rlen).
    eexists _, (N a' l' r'). split; [done|].
    split; cbn [t_nodes t_root t_free]; try done.
    + by rewrite Rlen.
    + intros i ni Hi Hni. destruct (Bleaf i ni Hi Hni) as (n' & Hn' & Hsl). exists n'.
      split; [|done]. rewrite Rsame; [done|]. intros ->. rewrite <- Blv in Hi. simpl in Hi, Hnd'.
      apply NoDup_cons in Hnd' as [Hna _]. apply Hna. rewrite elem_of_app in Hi |- *.
      destruct Hi as [Hi|Hi]; apply leaves_ids in Hi; auto.
    + intros i Hi. rewrite Rsame; [by apply Bsame|]. intros ->. apply Hi. rewrite <- Bids. simpl. set_solver.
  - destruct (balance_spec T (f :: cx) a l r Hrep Hrc Hroot Fl Fr Hnd) as (T1 & u & -> & B).
    destruct B as [Brep Brc Broot Bfree Blen Bids Blv Bleaf Bsame (a' & l' & r' & -> & Fl' & Fr')].
    cbn [mbind res_bind].
    pose proof Brep as (n & Hn & Hlk & H1 & H2 & Hl & Hr).
    destruct (rep_root _ _ _ Hl) as (n1 & Hn1 & _). destruct (rep_root _ _ _ Hr) as (n2 & Hn2 & _).
    assert (Hlt : a' < length (t_nodes T1)) by (by eapply lookup_lt_Some).
    simpl (bid (N a' l' r')) in *. rewrite (nget_ok _ _ _ Hn). cbn [mbind res_bind]. rewrite H1, H2.
    rewrite !bool_decide_true by eauto. cbn [assert_ mbind res_bind].
    rewrite (nget_ok _ _ _ Hn1), (nget_ok _ _ _ Hn2). cbn [mbind res_bind]. do 2 upds.
    rewrite Hlk.
    assert (Hndu : NoDup (cids (f :: cx) ++ ids (N a' l' r'))) by (by rewrite Bids).
    assert (Hnd' : NoDup (ids (N a' l' r'))) by (by apply NoDup_app in Hndu as (_ & _ & ?)).
    assert (Hcxu : ∀ i, i ∈ cids (f :: cx) → i ∉ ids (N a' l' r')) by (by apply NoDup_app in Hndu as (_ & ? & _)).
    assert (Hndc : NoDup (cids (f :: cx))) by (by apply NoDup_app in Hndu as (? & _)).
    destruct (refresh_ok T1 _ a' l' r' n1 n2 Brep Fl' Fr' Hnd' Hn1 Hn2) as (Rrep & Rfit & Rsame & Rlen).
    set (ns := alter _ a' _) in *.
    assert (Hrc2 : rep_ctx ns (f :: cx) a').
    { eapply rep_ctx_ext; [|exact Brc]. intros i Hi. apply Rsame. intros ->. apply (Hcxu _ Hi). simpl. set_solver. }
    assert (Hsib_same : ∀ g i, g ∈ f :: cx → i ∈ ids (f_sib g) → ns !! i = t_nodes T !! i).
    { intros g i Hg Hi.
      assert (Hic : i ∈ cids (f :: cx)).
      { apply elem_of_list_bind. exists g. split; [|done]. by right. }
      assert (i ∉ ids (N a l r)) as Hi1. { rewrite <- Bids. by apply Hcxu. }
      rewrite Rsame by (intros ->; apply (Hcxu _ Hic); simpl; set_solver).
      apply Bsame; [done|]. intros Ht. injection Ht as <-.
      simpl in Hndc. apply NoDup_cons in Hndc as [Hfi Hndc]. apply Hfi.
      apply elem_of_cons in Hg as [->|Hg]; apply elem_of_app; [by left|]. right.
      apply elem_of_list_bind. exists g. split; [by right|done]. }
    assert (Hfc2 : fit_ctx ns (f :: cx)).
    { eapply fit_ctx_same; [|exact Hrc|done]. done. }
    assert (Hfit_sib : fit ns (f_sib f)) by (apply Hfc2; set_solver).
    assert (Hrepf : rep ns (top cx) (plug1 f (N a' l' r'))).
    { destruct Hrc2 as (nf & Hnf & Hlf & Hf1 & Hf2 & Hsf & Hrc2). unfold plug1.
      destruct (f_left f); exists nf; done. }
    assert (Hrc3 : rep_ctx ns cx (f_id f)).
    { by destruct Hrc2 as (nf & Hnf & Hlf & Hf1 & Hf2 & Hsf & Hrc2). }
    assert (Hfc3 : fit_ctx ns cx) by (intros g Hg; apply Hfc2; set_solver).
    pose proof (cids_nodup_disj _ _ _ Hndu) as Hnd3.
    assert (Hex : ∃ T' t', refit enclose fuel (Tree (t_root T1) ns (t_free T1)) (Some (f_id f)) = Ok T' ∧
      refitted (Tree (t_root T1) ns (t_free T1)) (plug cx (plug1 f (N a' l' r'))) T' t').
    { unfold plug1 in *. simpl in Hfuel. destruct (f_left f); apply IH; try done; try lia. }
    destruct Hex as (T' & t' & HT' & [Crep Cfit Croot Cfree Clen Cids Clv Cleaf Csame]).
    change (top (f :: cx)) with (Some (f_id f)). rewrite HT'.
    exists T', t'. split; [done|]. simpl in *.
    change (plug cx (plug1 f (N a' l' r'))) with (plug (f :: cx) (N a' l' r')) in *.
    assert (Hpi : ids (plug (f :: cx) (N a' l' r')) ≡ₚ ids (plug (f :: cx) (N a l r))).
    { rewrite !ids_plug. by apply Permutation_app_head. }
    assert (Hpl : leaves (plug (f :: cx) (N a' l' r')) ≡ₚ leaves (plug (f :: cx) (N a l r))).
    { rewrite !leaves_plug. by apply Permutation_app_head. }
    split; try done.
    + congruence.
    + congruence.
    + by rewrite Cids.
    + by rewrite Clv.
    + intros i ni Hi Hni.
      assert (∃ n1', ns !! i = Some n1' ∧ same_leaf ni n1') as (n1' & Hn1' & Hs1).
      { pose proof Hi as Hi'. change (plug cx (plug1 f (N a l r))) with (plug (f :: cx) (N a l r)) in Hi'.
        rewrite leaves_plug in Hi'. apply elem_of_app in Hi' as [Hi'|Hi'].
        - exists ni. split; [|done]. rewrite <- Hni. apply elem_of_list_bind in Hi' as (g & Hg & Hgc).
          apply leaves_ids in Hg. by eapply Hsib_same.
        - destruct (Bleaf i ni Hi' Hni) as (n' & Hn' & Hsl). exists n'. split; [|done]. rewrite Rsame; [done|].
          intros ->. change (leaves l ++ leaves r) with (leaves (N a l r)) in Hi'. rewrite <- Blv in Hi'.
          simpl in Hi'. apply NoDup_cons in Hnd' as [Hna _]. apply Hna. rewrite elem_of_app in Hi' |- *.
          destruct Hi' as [Hi'|Hi']; apply leaves_ids in Hi'; auto. }
      destruct (Cleaf i n1') as (n2' & Hn2' & Hs2).
      { change (plug cx (plug1 f (N a' l' r'))) with (plug (f :: cx) (N a' l' r')). by rewrite Hpl. }
      { done. }
      exists n2'. split; [done|]. unfold same_leaf in *. destruct Hs1 as (-> & -> & ->) || (destruct Hs1 as (? & ? & ?), Hs2 as (? & ? & ?); split_and!; congruence).
    + intros i Hi. change (plug cx (plug1 f (N a l r))) with (plug (f :: cx) (N a l r)) in Hi.
      rewrite <- Hpi in Hi. rewrite Csame by done. rewrite ids_plug in Hi.
      assert (i ∉ ids (N a' l' r')) as Hiu. { intros ?. apply Hi, elem_of_app. by right. }
      rewrite Rsame by (intros ->; apply Hiu; simpl; set_solver). apply Bsame; [by rewrite <- Bids|].
      intros Ht. apply Hi, elem_of_app. left. by apply top_cids.
Qed.
End proofs.

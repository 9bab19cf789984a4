(** Proofs about serialization (S11nModel.v). *)
From Verif Require Import Outcome S11nModel S11nSpec.
From Coq Require Import Sorted.
Local Open Scope nat_scope.

(** ** Induction over types *)
Section ind.
Variable P : ty → Prop.
Hypothesis Pint : ∀ n, P (TInt n).
Hypothesis Pbool : P TBool.
Hypothesis Pempty : P TEmpty.
Hypothesis Pstr : P TStr.
Hypothesis Pbits : P TBits.
Hypothesis Pvec : ∀ t, P t → P (TVec t).
Hypothesis Parr : ∀ n t, P t → P (TArr n t).
Hypothesis Ppair : ∀ a b, P a → P b → P (TPair a b).
Hypothesis Pvar : ∀ ts, Forall P ts → P (TVar ts).
Hypothesis Popt : ∀ t, P t → P (TOpt t).
Hypothesis Pmap : ∀ k v, P k → P v → P (TMap k v).
Fixpoint ty_rect' (t : ty) : P t :=
  match t with
  | TInt n => Pint n | TBool => Pbool | TEmpty => Pempty | TStr => Pstr | TBits => Pbits
  | TVec t => Pvec t (ty_rect' t) | TArr n t => Parr n t (ty_rect' t)
  | TPair a b => Ppair a b (ty_rect' a) (ty_rect' b)
  | TVar ts => Pvar ts ((fix go l : Forall P l := match l with
                          | [] => Forall_nil_2 P
                          | x :: l => Forall_cons_2 P x l (ty_rect' x) (go l) end) ts)
  | TOpt t => Popt t (ty_rect' t)
  | TMap k v => Pmap k v (ty_rect' k) (ty_rect' v)
  end.
End ind.

Lemma ty_eqb_spec : ∀ a b, ty_eqb a b = true ↔ a = b.
Proof.
  intros a. induction a using ty_rect'; intros c; destruct c; cbn [ty_eqb]; try (split; congruence).
  - rewrite Nat.eqb_eq. split; congruence.
  - rewrite IHa. split; congruence.
  - rewrite andb_true_iff, Nat.eqb_eq, IHa. split; [intros [-> ->]; done|intros [= -> ->]; done].
  - rewrite andb_true_iff, IHa1, IHa2. split; [intros [-> ->]; done|intros [= -> ->]; done].
  - revert ts0. induction H as [|x l Hx _ IH]; intros [|y l']; try (split; congruence).
    rewrite andb_true_iff, Hx, IH. split; [intros [-> [= ->]]; done|intros [= -> ->]; done].
  - rewrite IHa. split; congruence.
  - rewrite andb_true_iff, IHa1, IHa2. split; [intros [-> ->]; done|intros [= -> ->]; done].
Qed.
Lemma index_of_nodup ts i t : NoDup ts → ts !! i = Some t → index_of t ts = i.
Proof.
  intros N. revert i. induction N as [|x ts Hx N IH]; intros i H; [done|]. cbn [index_of].
  destruct i as [|i]; cbn in H.
  - injection H as ->. by rewrite (proj2 (ty_eqb_spec t t)).
  - destruct (ty_eqb t x) eqn:E; [|by rewrite IH with (i := i)].
    apply ty_eqb_spec in E as ->. exfalso. apply Hx. by apply elem_of_list_lookup_2 in H.
Qed.

(** ** Bytes *)
Lemma le_bytes_length n x : length (le_bytes n x) = n.
Proof. revert x. induction n; intros x; cbn; [done|]. by rewrite IHn. Qed.
Lemma le_val_bytes n x : (x < 256 ^ N.of_nat n)%N → le_val (le_bytes n x) = x.
Proof.
  revert x. induction n as [|n IH]; intros x H.
  - cbn in *. lia.
  - cbn [le_bytes le_val]. rewrite IH.
    + rewrite N.add_comm. symmetry. apply N.div_mod. done.
    + rewrite Nat2N.inj_succ, N.pow_succ_r' in H. apply N.div_lt_upper_bound; [done|]. lia.
Qed.
Lemma clamp16_fits n : n ≤ limit16 → clamp16 n = N.of_nat n.
Proof. unfold clamp16, limit16, max16. lia. Qed.
Lemma size16_fits n : n ≤ limit16 → size16 n = n.
Proof. intros H. unfold size16. rewrite clamp16_fits by done. lia. Qed.
Lemma size16_min n : size16 n = Nat.min n limit16.
Proof. unfold size16, clamp16, limit16, max16. lia. Qed.
Lemma clamp16_bound n : (clamp16 n < 256 ^ N.of_nat 2)%N.
Proof. unfold clamp16, max16. change (256 ^ N.of_nat 2)%N with 65536%N. lia. Qed.

(** ** Reading what is there *)
(** [f] applied to a buffer that holds [bs] at the current position yields [v]
    and moves past [bs]. *)
Definition reads {A} (f : list N → inp → res (A * inp)) (bs : list N) (v : A) : Prop :=
  ∀ pre post bad, f (pre ++ bs ++ post) (Inp (length pre) false bad) =
    Ok (v, Inp (length pre + length bs) false bad).

Lemma reads_ret {A} (v : A) : reads (λ _ s, Ok (v, s)) [] v.
Proof. intros pre post bad. cbn. by rewrite Nat.add_0_r. Qed.
Lemma reads_bind {A B} (f : list N → inp → res (A * inp)) (g : A → list N → inp → res (B * inp)) b1 b2 x y :
  reads f b1 x → reads (g x) b2 y → reads (λ buf s, '(x, s) ← f buf s; g x buf s) (b1 ++ b2) y.
Proof.
  intros H1 H2 pre post bad. rewrite <- (app_assoc b1 b2 post). rewrite H1. cbn [mbind res_bind].
  specialize (H2 (pre ++ b1) post bad). rewrite <- app_assoc, app_length in H2. rewrite H2.
  rewrite app_length, Nat.add_assoc. done.
Qed.
Lemma reads_map {A B} (f : list N → inp → res (A * inp)) (h : A → B) bs x :
  reads f bs x → reads (λ buf s, '(x, s) ← f buf s; Ok (h x, s)) bs (h x).
Proof. intros H pre post bad. by rewrite H. Qed.

Lemma reads_bytes n x : (x < 256 ^ N.of_nat n)%N → reads (λ buf, rd_bytes buf n) (le_bytes n x) (Some x).
Proof.
  intros H pre post bad. unfold rd_bytes, load_at. cbn [in_failed in_pos in_bad].
  rewrite !app_length, le_bytes_length. rewrite (proj2 (Nat.ltb_ge _ _)) by lia.
  rewrite (proj2 (Nat.leb_le _ _)) by lia. cbn [require_ mbind res_bind].
  rewrite drop_app_alt by done. rewrite take_app_alt by (by rewrite le_bytes_length).
  by rewrite le_val_bytes.
Qed.
Lemma reads_bool (old b : bool) : reads (λ buf, rd_bool buf old) (le_bytes 1 (if (b : bool) then 1%N else 0%N)) b.
Proof.
  intros pre post bad. unfold rd_bool. rewrite (reads_bytes 1 (if b then 1 else 0)%N) by (by destruct b).
  by destruct b.
Qed.
Lemma reads_size cur n : n ≤ limit16 → reads (λ buf, rd_size buf cur) (le_bytes 2 (clamp16 n)) n.
Proof.
  intros H pre post bad. unfold rd_size. rewrite (reads_bytes 2 (clamp16 n)) by apply clamp16_bound.
  cbn [mbind res_bind default]. rewrite clamp16_fits by done. cbn [from_option]. unfold id. by rewrite Nat2N.id.
Qed.

Lemma reads_each {A B} (f : A → list N → inp → res (A * inp)) (w : B → list N) (P : A → Prop) (Q : B → Prop) (h : B → A) :
  (∀ b o, Q b → P o → reads (f o) (w b) (h b)) →
  ∀ l ol, Forall Q l → Forall P ol → length ol = length l →
  reads (λ buf, rd_each (λ o, f o buf) ol) (concat (w <$> l)) (h <$> l).
Proof.
  intros Hf l. induction l as [|b l IH]; intros [|o ol] Fl Fo Hl; try done.
  - apply reads_ret.
  - apply Forall_cons in Fl as [Fb Fl], Fo as [Fo1 Fo]. cbn [rd_each]. rewrite !fmap_cons. cbn [concat].
    apply (reads_bind (λ buf, f o buf)
      (λ y buf s, '(l', s) ← rd_each (λ o, f o buf) ol s; Ok (y :: l', s)) _ _ (h b)); [by apply Hf|].
    apply (reads_map (λ buf, rd_each (λ o, f o buf) ol) (cons (h b))). apply IH; [done..|].
    cbn in Hl. lia.
Qed.

(** *** Bit vectors *)
Lemma bits_val_bound l : (bits_val l < 2 ^ N.of_nat (length l))%N.
Proof.
  induction l as [|b l IH]; [done|]. cbn [bits_val length]. rewrite Nat2N.inj_succ, N.pow_succ_r'.
  destruct b; lia.
Qed.
Lemma bits_val_testbit l : ∀ j, j < length l → Some (N.testbit (bits_val l) (N.of_nat j)) = l !! j.
Proof.
  induction l as [|b l IH]; intros j Hj; cbn in Hj; [lia|]. cbn [bits_val].
  replace ((if b then 1 else 0) + 2 * bits_val l)%N with (2 * bits_val l + N.b2n b)%N by (destruct b; cbn; lia).
  destruct j as [|j].
  - cbn [N.of_nat]. rewrite N.testbit_0_r. done.
  - rewrite Nat2N.inj_succ, N.testbit_succ_r. cbn. rewrite <- IH by lia. done.
Qed.
Lemma bits_restore l : (λ j, N.testbit (bits_val l) (N.of_nat j)) <$> seq 0 (length l) = l.
Proof.
  apply list_eq. intros j. rewrite list_lookup_fmap. destruct (decide (j < length l)) as [H|H].
  - rewrite lookup_seq_lt by done. cbn. by rewrite bits_val_testbit.
  - rewrite lookup_seq_ge by lia. cbn. symmetry. apply lookup_ge_None_2. lia.
Qed.
Lemma num_sets_ge n : n ≤ num_sets n * 32.
Proof.
  unfold num_sets. pose proof (Nat.div_mod n 32 ltac:(lia)) as E.
  pose proof (Nat.mod_upper_bound n 32 ltac:(lia)).
  destruct (Nat.eqb_spec (n mod 32) 0); lia.
Qed.
Lemma sets_concat (l : list bool) k :
  concat ((λ i, take 32 (drop (i * 32) l)) <$> seq 0 k) = take (k * 32) l.
Proof.
  induction k as [|k IH]; [done|]. rewrite seq_S, fmap_app, concat_app, IH. cbn [fmap list_fmap concat].
  rewrite app_nil_r. replace (S k * 32) with (k * 32 + 32) by lia. cbn [Nat.add]. by rewrite take_take_drop.
Qed.
Lemma reads_set (l : list bool) i :
  reads (λ buf, rd_set buf (Nat.min (length l - i * 32) 32))
    (le_bytes 4 (bits_val (take 32 (drop (i * 32) l)))) (take 32 (drop (i * 32) l)).
Proof.
  intros pre post bad. unfold rd_set.
  assert (Hlen : length (take 32 (drop (i * 32) l)) = Nat.min (length l - i * 32) 32).
  { rewrite take_length, drop_length. lia. }
  rewrite (reads_bytes 4 (bits_val (take 32 (drop (i * 32) l)))).
  - cbn [mbind res_bind]. rewrite <- Hlen. by rewrite bits_restore.
  - eapply N.lt_le_trans; [apply bits_val_bound|].
    change (256 ^ N.of_nat 4)%N with (2 ^ N.of_nat 32)%N. apply N.pow_le_mono_r; [done|]. lia.
Qed.
Lemma reads_sets (l : list bool) is :
  reads (λ buf, rd_sets buf (length l) is)
    (concat ((λ i, le_bytes 4 (bits_val (take 32 (drop (i * 32) l)))) <$> is))
    (concat ((λ i, take 32 (drop (i * 32) l)) <$> is)).
Proof.
  induction is as [|i is IH]; [apply reads_ret|]. cbn [rd_sets]. rewrite !fmap_cons. cbn [concat].
  apply (reads_bind (λ buf, rd_set buf (Nat.min (length l - i * 32) 32))
    (λ a buf s, '(b, s) ← rd_sets buf (length l) is s; Ok (a ++ b, s)) _ _ (take 32 (drop (i * 32) l)));
    [apply reads_set|].
  apply (reads_map (λ buf, rd_sets buf (length l) is) (app (take 32 (drop (i * 32) l)))). exact IH.
Qed.

(** *** Objects that can be read into *)
Fixpoint oldok (t : ty) (o : val) : Prop :=
  match t with
  | TEmpty => o = VUnit
  | TVec t => Forall (oldok t) (list_of o)
  | TArr n t => length (list_of o) = n ∧ Forall (oldok t) (list_of o)
  | TPair a b => ∃ x y, o = VPair x y ∧ oldok a x ∧ oldok b y
  | TMap _ _ => map_of o = []
  | _ => True
  end.
Lemma dflt_old t : oldok t (dflt t).
Proof.
  induction t using ty_rect'; cbn; try done.
  - rewrite replicate_length. split; [done|]. by apply Forall_replicate.
  - eauto.
Qed.
Lemma resets_old klt t v : resets t → has_ty klt t v → oldok t v.
Proof.
  revert v. induction t using ty_rect'; intros v R T; cbn in R |- *; try done; inversion T; subst; try done.
  - cbn. eapply Forall_impl; [done|]. intros x Hx. by apply IHt.
  - cbn. split; [done|]. eapply Forall_impl; [done|]. intros x Hx. by apply IHt.
  - destruct R. eexists _, _. eauto.
Qed.
Lemma resized_old t n l : Forall (oldok t) l → Forall (oldok t) (resized (dflt t) n l).
Proof.
  intros F. apply Forall_app. split; [by apply Forall_take|]. apply Forall_replicate, dflt_old.
Qed.
Lemma resized_length {A} (d : A) n l : length (resized d n l) = n.
Proof. unfold resized. rewrite app_length, take_length, replicate_length. lia. Qed.

Lemma fits_list l : fits (VList l) ↔ length l ≤ limit16 ∧ Forall fits l.
Proof.
  cbn. apply and_iff_compat_l. induction l as [|x l IH]; [by split; [constructor|]|].
  rewrite Forall_cons, IH. done.
Qed.
Lemma fits_map l : fits (VMap l) ↔ length l ≤ limit16 ∧ Forall (λ e, fits e.1 ∧ fits e.2) l.
Proof.
  cbn. apply and_iff_compat_l. induction l as [|x l IH]; [by split; [constructor|]|].
  rewrite Forall_cons, IH. done.
Qed.
Lemma good_var ts : good (TVar ts) ↔ NoDup ts ∧ length ts ≤ 256 ∧ Forall good ts.
Proof.
  cbn. do 2 apply and_iff_compat_l. induction ts as [|x l IH]; [by split; [constructor|]|].
  rewrite Forall_cons, IH. done.
Qed.

Lemma emplace_last klt k v l : Forall (λ e, klt e.1 k = true) l → map_emplace klt k v l = l ++ [(k, v)].
Proof.
  induction 1 as [|e l He _ IH]; [done|]. cbn [map_emplace]. rewrite He, IH. done.
Qed.
(** Entries appended in order. *)
Lemma reads_entries klt (fk fv : val → list N → inp → res (val * inp)) (wk wv : val → list N)
    (Pk Pv : val → Prop) (Q : val * val → Prop) :
  (∀ e o, Q e → Pk o → reads (fk o) (wk e.1) e.1) →
  (∀ e o, Q e → Pv o → reads (fv o) (wv e.2) e.2) →
  (∀ e, Q e → Pk e.1 ∧ Pv e.2) →
  ∀ l done k v, Forall Q l → Pk k → Pv v →
  StronglySorted (λ a b, klt a.1 b.1 = true) (done ++ l) →
  reads (λ buf, rd_entries klt (λ o, fk o buf) (λ o, fv o buf) (length l) k v done)
    (concat ((λ e, wk e.1 ++ wv e.2) <$> l)) (done ++ l).
Proof.
  intros Hk Hv HP l. induction l as [|e l IH]; intros dn k v Fl Pk0 Pv0 S.
  - rewrite app_nil_r. apply reads_ret.
  - apply Forall_cons in Fl as [Fe Fl]. cbn [length rd_entries]. rewrite fmap_cons. cbn [concat].
    rewrite <- app_assoc.
    apply (reads_bind (λ buf, fk k buf) (λ k buf s, '(v, s) ← fv v buf s;
       rd_entries klt (λ o, fk o buf) (λ o, fv o buf) (length l) k v (map_emplace klt k v dn) s) _ _ e.1);
      [by apply Hk|].
    apply (reads_bind (λ buf, fv v buf) (λ v buf s,
       rd_entries klt (λ o, fk o buf) (λ o, fv o buf) (length l) e.1 v (map_emplace klt e.1 v dn) s) _ _ e.2);
      [by apply Hv|].
    rewrite emplace_last.
    + replace (dn ++ e :: l) with ((dn ++ [e]) ++ l) by (by rewrite <- app_assoc).
      replace [(e.1, e.2)] with [e] by (by destruct e). destruct (HP e Fe).
      apply IH; [done..|]. by rewrite <- app_assoc.
    + clear -S. induction dn as [|x dn IH]; [constructor|].
      apply StronglySorted_inv in S as [S F]. apply Forall_app in F as [F1 F2]. apply Forall_cons in F2 as [F2 _].
      constructor; [done|]. by apply IH.
Qed.

Lemma wr_var ts i t v : ts !! i = Some t →
  wr (TVar ts) (VVar i v) = le_bytes 1 (N.of_nat (index_of t ts)) :: wr t v.
Proof.
  intros Hi. cbn [wr].
  enough (X : ∀ l j, l !! j = Some t → (fix go (l : list ty) (j : nat) {struct l} :=
       match l, j with
       | t :: _, O => le_bytes 1 (N.of_nat (index_of t ts)) :: wr t v
       | _ :: l, S j => go l j
       | [], _ => []
       end) l j = le_bytes 1 (N.of_nat (index_of t ts)) :: wr t v) by exact (X ts i Hi).
  clear. induction l as [|x l IH]; intros [|j] H; try done; cbn in H.
  - by injection H as ->.
  - by apply IH.
Qed.
Lemma wr_left_var ts i t v : ts !! i = Some t → wr_left (TVar ts) (VVar i v) = VVar i (wr_left t v).
Proof.
  intros Hi. cbn [wr_left].
  enough (X : ∀ l j, l !! j = Some t → (fix go (l : list ty) (j : nat) {struct l} :=
       match l, j with
       | t :: _, O => VVar i (wr_left t v)
       | _ :: l, S j => go l j
       | [], _ => VVar i v
       end) l j = VVar i (wr_left t v)) by exact (X ts i Hi).
  clear. induction l as [|x l IH]; intros [|j] H; try done; cbn in H.
  - by injection H as ->.
  - by apply IH.
Qed.
(** Reading a variant: the alternative selected by the id, or nothing. *)
Definition rd_alt klt buf (old : val) (id : nat) (o : option ty) (s : inp) : res (val * inp) :=
  match o with Some t => '(x, s) ← rd klt buf t (dflt t) s; Ok (VVar id x, s) | None => Ok (old, s) end.
Lemma rd_var klt buf ts old s :
  rd klt buf (TVar ts) old s =
  ('(o, s) ← rd_bytes buf 1 s;
   rd_alt klt buf old (N.to_nat (default 0%N o)) (ts !! N.to_nat (default 0%N o)) s).
Proof.
  cbn [rd]. destruct (rd_bytes buf 1 s) as [[o s']| | |]; [|done..]. cbn [mbind res_bind].
  generalize (N.to_nat (default 0%N o)) as id. intros id.
  enough (X : ∀ l j, (fix go (l : list ty) (j : nat) {struct l} :=
       match l, j with
       | t :: _, O => '(x, s) ← rd klt buf t (dflt t) s'; Ok (VVar id x, s)
       | _ :: l, S j => go l j
       | [], _ => Ok (old, s')
       end) l j = rd_alt klt buf old id (l !! j) s') by exact (X ts id).
  induction l as [|x l IH]; intros [|j]; try done. apply IH.
Qed.

(** *** Round trip *)
Lemma round_trip klt t : good t → ∀ v, has_ty klt t v → fits v →
  ∀ old, oldok t old → reads (λ buf, rd klt buf t old) (concat (wr t v)) v.
Proof.
  induction t using ty_rect'; intros G v T F old O; inversion T; subst; clear T.
  - cbn [wr rd concat]. rewrite app_nil_r.
    apply (reads_map (λ buf, rd_bytes buf n) (λ o, match o with Some x => VInt x | None => old end) _ (Some x)).
    by apply reads_bytes.
  - cbn [wr rd concat]. rewrite app_nil_r.
    apply (reads_map (λ buf, rd_bool buf (match old with VBool b => b | _ => false end)) VBool). apply reads_bool.
  - cbn [wr rd concat]. cbn in O. subst. apply reads_ret.
  - cbn [rd wr]. apply fits_list in F as [Fl Ff]. rewrite size16_fits, take_ge by done. cbn [concat].
    apply (reads_bind (λ buf, rd_size buf (length (list_of old)))
      (λ n buf s, '(l, s) ← rd_each (λ x s, '(o, s) ← rd_bytes buf 1 s;
          Ok (match o with Some c => VInt c | None => x end, s)) (resized (VInt 0) n (list_of old)) s;
          Ok (VList l, s)) _ _ (length l)); [by apply reads_size|].
    replace (concat (concat ((λ x, match x with VInt c => [le_bytes 1 c] | _ => [] end) <$> l)))
      with (concat ((λ x, match x with VInt c => le_bytes 1 c | _ => [] end) <$> l)).
    2: { clear. induction l as [|x l IH]; [done|]. rewrite !fmap_cons. cbn [concat]. rewrite concat_app, <- IH.
         destruct x; cbn; rewrite ?app_nil_r; done. }
    replace l with (id <$> l) at 2 by apply list_fmap_id.
    apply (reads_map (λ buf, rd_each (λ x s, '(o, s) ← rd_bytes buf 1 s;
          Ok (match o with Some c => VInt c | None => x end, s)) (resized (VInt 0) (length l) (list_of old))) VList).
    apply (reads_each (λ x buf s, '(o, s) ← rd_bytes buf 1 s; Ok (match o with Some c => VInt c | None => x end, s))
       (λ x, match x with VInt c => le_bytes 1 c | _ => [] end) (λ _, True) (has_ty klt (TInt 1)) id).
    + intros b o Hb _. inversion Hb; subst. cbn [id].
      apply (reads_map (λ buf, rd_bytes buf 1) (λ o', match o' with Some c => VInt c | None => o end) _ (Some x)).
      by apply reads_bytes.
    + done.
    + by apply Forall_true.
    + by rewrite resized_length.
  - cbn [rd wr]. cbn [fits] in F. rewrite size16_fits, take_ge by done. cbn [concat].
    apply (reads_bind (λ buf, rd_size buf (length (bits_of old)))
      (λ n buf s, '(l, s) ← rd_sets buf n (seq 0 (num_sets n)) s; Ok (VBits l, s)) _ _ (length l)); [by apply reads_size|].
    apply (reads_map (λ buf, rd_sets buf (length l) (seq 0 (num_sets (length l)))) VBits).
    pose proof (reads_sets l (seq 0 (num_sets (length l)))) as R.
    rewrite sets_concat, take_ge in R by apply num_sets_ge. exact R.
  - cbn [rd wr]. apply fits_list in F as [Fl Ff]. rewrite size16_fits, take_ge by done. cbn [concat].
    cbn in G, O.
    apply (reads_bind (λ buf, rd_size buf (length (list_of old)))
      (λ n buf s, '(l, s) ← rd_each (rd klt buf t) (resized (dflt t) n (list_of old)) s; Ok (VList l, s))
      _ _ (length l)); [by apply reads_size|].
    replace (concat (concat (wr t <$> l))) with (concat ((λ x, concat (wr t x)) <$> l)).
    2: { clear. induction l as [|x l IH]; [done|]. rewrite !fmap_cons. cbn [concat]. by rewrite concat_app, <- IH. }
    replace l with (id <$> l) at 2 by apply list_fmap_id.
    apply (reads_map (λ buf, rd_each (rd klt buf t) (resized (dflt t) (length l) (list_of old))) VList).
    apply (reads_each (λ o buf, rd klt buf t o) (λ x, concat (wr t x)) (oldok t) (λ x, has_ty klt t x ∧ fits x) id).
    + intros b o [Hb Fb] Ho. by apply IHt.
    + apply Forall_and. done.
    + by apply resized_old.
    + by rewrite resized_length.
  - cbn [rd wr]. apply fits_list in F as [Fl Ff]. cbn in G, O. destruct O as [O1 O2].
    replace (concat (concat (wr t <$> l))) with (concat ((λ x, concat (wr t x)) <$> l)).
    2: { clear. induction l as [|x l IH]; [done|]. rewrite !fmap_cons. cbn [concat]. by rewrite concat_app, <- IH. }
    replace l with (id <$> l) at 2 by apply list_fmap_id.
    apply (reads_map (λ buf, rd_each (rd klt buf t) (list_of old)) VList).
    apply (reads_each (λ o buf, rd klt buf t o) (λ x, concat (wr t x)) (oldok t) (λ x, has_ty klt t x ∧ fits x) id).
    + intros b o [Hb Fb] Ho. by apply IHt.
    + apply Forall_and. done.
    + done.
    + done.
  - cbn [good fits oldok] in G, F, O. destruct G as [G1 G2], F as [F1 F2], O as (x0 & y0 & -> & O1 & O2).
    cbn [rd wr]. rewrite concat_app.
    apply (reads_bind (λ buf, rd klt buf t1 x0)
      (λ x buf s, '(y, s) ← rd klt buf t2 y0 s; Ok (VPair x y, s)) _ _ x); [by apply IHt1|].
    apply (reads_map (λ buf, rd klt buf t2 y0) (VPair x)). by apply IHt2.
  - apply good_var in G as (G1 & G2 & G3). cbn [fits] in F. rename t into t1.
    match goal with H : ts !! i = Some t1 |- _ => rename H into Hi end.
    match goal with H : has_ty klt t1 _ |- _ => rename H into Ht end.
    rewrite (wr_var _ _ t1) by done. rewrite (index_of_nodup ts i) by done. cbn [concat].
    assert (Hb : i < 256) by (apply lookup_lt_Some in Hi; lia).
    intros pre post bad. rewrite rd_var. revert pre post bad.
    apply (reads_bind (λ buf, rd_bytes buf 1)
      (λ o buf, rd_alt klt buf old (N.to_nat (default 0%N o)) (ts !! N.to_nat (default 0%N o)))
      _ _ (Some (N.of_nat i))).
    + apply reads_bytes. change (256 ^ N.of_nat 1)%N with 256%N. lia.
    + cbn [default from_option]. unfold id. rewrite Nat2N.id, Hi. cbn [rd_alt].
      apply (reads_map (λ buf, rd klt buf t1 (dflt t1)) (VVar i)).
      rewrite Forall_forall in H, G3. apply elem_of_list_lookup_2 in Hi. apply H; auto. apply dflt_old.
  - cbn [rd wr concat]. rewrite app_nil_r.
    pose proof (reads_bool (match old with VSome _ => true | _ => false end) false) as R.
    intros pre post bad. rewrite (R pre post bad). done.
  - cbn [rd wr concat].
    apply (reads_bind (λ buf, rd_bool buf (match old with VSome _ => true | _ => false end))
      (λ b buf s, if (b : bool) then '(x, s) ← rd klt buf t (dflt t) s; Ok (VSome x, s) else Ok (VNone, s)) _ _ true);
      [apply (reads_bool _ true)|].
    apply (reads_map (λ buf, rd klt buf t (dflt t)) VSome). apply IHt; [done..|]. apply dflt_old.
  - apply fits_map in F as [Fl Ff]. cbn in G, O. destruct G as (G1 & G2 & R1 & R2). cbn [rd wr]. rewrite O. cbn [concat].
    apply (reads_bind (λ buf, rd_size buf (length (@nil (val * val))))
      (λ n buf s, '(l, s) ← rd_entries klt (rd klt buf t1) (rd klt buf t2) n (dflt t1) (dflt t2) [] s; Ok (VMap l, s))
      _ _ (length l)); [by apply reads_size|].
    replace (concat (concat ((λ e, wr t1 e.1 ++ wr t2 e.2) <$> l)))
      with (concat ((λ e, concat (wr t1 e.1) ++ concat (wr t2 e.2)) <$> l)).
    2: { clear. induction l as [|x l IH]; [done|]. rewrite !fmap_cons. cbn [concat]. by rewrite !concat_app, <- IH. }
    apply (reads_map (λ buf, rd_entries klt (rd klt buf t1) (rd klt buf t2) (length l) (dflt t1) (dflt t2) []) VMap _ ([] ++ l)).
    apply (reads_entries klt (λ o buf, rd klt buf t1 o) (λ o buf, rd klt buf t2 o)
      (λ x, concat (wr t1 x)) (λ x, concat (wr t2 x)) (oldok t1) (oldok t2)
      (λ e, (has_ty klt t1 e.1 ∧ has_ty klt t2 e.2) ∧ (fits e.1 ∧ fits e.2))).
    + intros e o [[? ?] [? ?]] Ho. by apply IHt1.
    + intros e o [[? ?] [? ?]] Ho. by apply IHt2.
    + intros e [[? ?] [? ?]]. split; by eapply resets_old.
    + apply Forall_and. done.
    + apply dflt_old.
    + apply dflt_old.
    + done.
Qed.

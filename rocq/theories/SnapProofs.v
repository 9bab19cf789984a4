(** Proofs about registry snapshots. *)
From Verif Require Import Outcome SnapModel SnapSpec S11nSpec S11nProofs S11nMore.
Local Open Scope nat_scope.

(** ** Bytes are bytes *)
Notation bytes := (Forall (λ b : N, (b < 256)%N)) (only parsing).
Lemma le_bytes_bytes n x : bytes (le_bytes n x).
Proof. revert x. induction n; intros x; cbn [le_bytes]; constructor; [|done]. by apply N.mod_lt. Qed.
Lemma concat_bytes (l : list (list N)) : Forall bytes l → bytes (concat l).
Proof. induction 1; cbn; [constructor|]. by apply Forall_app. Qed.
Lemma Forall_concat {A} (P : A → Prop) (l : list (list A)) : Forall (Forall P) l → Forall P (concat l).
Proof. induction 1; cbn; [constructor|]. by apply Forall_app. Qed.
Lemma Forall_fmap_all {A B} (P : B → Prop) (f : A → B) l : (∀ x, P (f x)) → Forall P (f <$> l).
Proof. intros H. apply Forall_fmap. apply Forall_true. done. Qed.
Lemma wr_bytes t : ∀ v, Forall bytes (wr t v).
Proof.
  induction t using ty_rect'; intros v; destruct v; cbn [wr];
    repeat first [apply le_bytes_bytes | apply Forall_nil_2 | apply Forall_cons_2].
  all: try (apply Forall_concat, Forall_fmap_all; done).
  - apply Forall_concat, Forall_fmap_all. intros []; repeat first [apply le_bytes_bytes | apply Forall_nil_2 | apply Forall_cons_2].
  - unfold bits_chunks. apply Forall_fmap_all. intros i. apply le_bytes_bytes.
  - by apply Forall_app.
  - enough (X : ∀ l j, Forall (λ t, ∀ v, Forall bytes (wr t v)) l → Forall bytes ((fix go (l : list ty) (j : nat) {struct l} :=
       match l, j with
       | t :: _, O => le_bytes 1 (N.of_nat (index_of t ts)) :: wr t v
       | _ :: l, S j => go l j
       | [], _ => []
       end) l j)) by (apply X; assumption).
    intros l. induction l as [|t l IHl]; intros [|j] F; try constructor.
    + apply le_bytes_bytes.
    + inversion F; subst. auto.
    + inversion F; subst. by apply IHl.
  - apply IHt.
  - apply Forall_concat, Forall_fmap_all. intros e. by apply Forall_app.
Qed.
Lemma wr_data_bytes p : bytes (concat (wr_data p)).
Proof.
  apply concat_bytes. unfold wr_data. constructor; [apply le_bytes_bytes|]. apply Forall_app. split.
  - apply Forall_fmap_all. intros x. apply le_bytes_bytes.
  - destruct (is_empty (p_ty p)); [constructor|]. apply Forall_concat, Forall_fmap_all. apply wr_bytes.
Qed.

(** ** Round trip *)
Definition pool_ok klt (cts : list ty) (p : pool) : Prop :=
  (p_comp p < 65536)%N ∧ cts !! N.to_nat (p_comp p) = Some (p_ty p) ∧
  length (p_idx p) ≤ 255 ∧ bytes (p_idx p) ∧
  (if is_empty (p_ty p) then p_vals p = []
   else length (p_vals p) = length (p_idx p) ∧ Forall (travels klt (p_ty p)) (p_vals p)) ∧
  length (concat (wr_data p)) ≤ limit16.
Definition snap_ok klt cts (s : snap) : Prop :=
  (s_time s < 256 ^ 8)%N ∧ length (s_ents s) ≤ limit16 ∧ Forall (λ e, (e < 256 ^ 4)%N) (s_ents s) ∧
  length (s_pools s) ≤ limit16 ∧ Forall (pool_ok klt cts) (s_pools s).

Lemma reads_int n x old : (x < 256 ^ N.of_nat n)%N → reads (λ buf, rd_int buf n old) (le_bytes n x) x.
Proof. intros H. apply (reads_map (λ buf, rd_bytes buf n) (default old) (le_bytes n x) (Some x)). by apply reads_bytes. Qed.
Lemma concat_le_bytes (l : list N) : concat (le_bytes 1 <$> l) = concat ((λ x, le_bytes 1 x) <$> l).
Proof. done. Qed.
Lemma reads_ints n (l : list N) ol : Forall (λ x, (x < 256 ^ N.of_nat n)%N) l → length ol = length l →
  reads (λ buf, rd_each (rd_int buf n) ol) (concat (le_bytes n <$> l)) l.
Proof.
  intros F L. rewrite <- (list_fmap_id l) at 2.
  apply (reads_each (λ o buf, rd_int buf n o) (le_bytes n) (λ _, True) (λ x, (x < 256 ^ N.of_nat n)%N) id).
  - intros b o Hb _. by apply reads_int.
  - done.
  - by apply Forall_true.
  - done.
Qed.
Lemma reads_vals klt t l ol : Forall (travels klt t) l → Forall (oldok t) ol → length ol = length l →
  reads (λ buf, rd_each (rd klt buf t) ol) (concat (concat (wr t <$> l))) l.
Proof.
  intros F O L. rewrite <- (list_fmap_id l) at 2.
  assert (concat (concat (wr t <$> l)) = concat ((λ v, concat (wr t v)) <$> l)) as ->.
  { clear. induction l as [|x l IH]; [done|]. rewrite !fmap_cons. cbn [concat]. by rewrite concat_app, IH. }
  apply (reads_each (λ o buf, rd klt buf t o) (λ v, concat (wr t v)) (oldok t) (travels klt t) id); [|done..].
  intros b o (G & T & X) Ho. by apply round_trip.
Qed.
Lemma byte_lt x : (x < 256)%N → (x < 256 ^ N.of_nat 1)%N.
Proof. done. Qed.
Lemma reads_data klt cts p : pool_ok klt cts p → reads (rd_data klt (p_comp p) (p_ty p)) (concat (wr_data p)) p.
Proof.
  intros (_ & _ & L & B & V & _). destruct p as [c t idx vals]. cbn [p_comp p_ty p_idx p_vals] in *.
  unfold wr_data, rd_data. cbn [p_ty p_idx p_vals]. cbn [concat].
  assert (E : (N.of_nat (length idx) mod 256 = N.of_nat (length idx))%N) by (apply N.mod_small; lia). rewrite E.
  apply (reads_bind (λ buf, rd_int buf 1 0) (λ n buf s, '(idx, s) ← rd_each (rd_int buf 1) (replicate (N.to_nat n) 0%N) s;
     if is_empty t then Ok (Pool c t idx [], s) else
     '(vals, s) ← rd_each (rd klt buf t) (replicate (N.to_nat n) (dflt t)) s;
     Ok (Pool c t idx vals, s)) _ _ (N.of_nat (length idx))).
  { apply reads_int. change (256 ^ N.of_nat 1)%N with 256%N. lia. }
  rewrite Nat2N.id, concat_app.
  apply (reads_bind (λ buf, rd_each (rd_int buf 1) (replicate (length idx) 0%N)) (λ idx' buf s,
     if is_empty t then Ok (Pool c t idx' [], s) else
     '(vals, s) ← rd_each (rd klt buf t) (replicate (length idx) (dflt t)) s;
     Ok (Pool c t idx' vals, s)) _ _ idx).
  { apply reads_ints; [|by rewrite replicate_length]. eapply Forall_impl; [exact B|]. intros x Hx. by apply byte_lt. }
  destruct (is_empty t).
  - subst vals. apply reads_ret.
  - destruct V as [V1 V2].
    apply (reads_map (λ buf, rd_each (rd klt buf t) (replicate (length idx) (dflt t))) (Pool c t idx)).
    apply reads_vals; [done| |by rewrite replicate_length]. apply Forall_replicate, dflt_old.
Qed.
Lemma int_of_fmap (l : list N) : int_of <$> (VInt <$> l) = l.
Proof. rewrite <- list_fmap_compose. apply list_fmap_id. Qed.
Lemma ints_travel klt n (l : list N) : Forall (λ x, (x < 256 ^ N.of_nat n)%N) l → length l ≤ limit16 →
  has_ty klt (TVec (TInt n)) (VList (VInt <$> l)) ∧ fits (VList (VInt <$> l)).
Proof.
  intros F L. split.
  - constructor. apply Forall_fmap. eapply Forall_impl; [exact F|]. intros x Hx. by constructor.
  - apply fits_list. rewrite fmap_length. split; [done|]. by apply Forall_fmap_all.
Qed.
Lemma reads_vec klt n (l : list N) : Forall (λ x, (x < 256 ^ N.of_nat n)%N) l → length l ≤ limit16 →
  reads (λ buf, rd klt buf (TVec (TInt n)) (VList [])) (concat (wr (TVec (TInt n)) (VList (VInt <$> l)))) (VList (VInt <$> l)).
Proof. intros F L. destruct (ints_travel klt n l F L) as [T X]. apply round_trip; [done|done|done|]. constructor. Qed.

Lemma reads_pool klt cts p : pool_ok klt cts p → reads (rd_pool klt cts) (concat (wr_pool p)) p.
Proof.
  intros P. pose proof P as (C & T & _ & _ & _ & L).
  unfold wr_pool, rd_pool. rewrite (eq_refl : concat (le_bytes 2 (p_comp p) :: wr (TVec (TInt 1)) (VList (VInt <$> concat (wr_data p))))
    = le_bytes 2 (p_comp p) ++ concat (wr (TVec (TInt 1)) (VList (VInt <$> concat (wr_data p))))).
  eapply (reads_bind (λ buf, rd_int buf 2 0)); [apply reads_int; exact C|].
  rewrite <- (app_nil_r (concat (wr (TVec (TInt 1)) _))).
  eapply (reads_bind (λ buf, rd klt buf (TVec (TInt 1)) (VList []))).
  { apply reads_vec; [|done]. eapply Forall_impl; [apply wr_data_bytes|]. intros x Hx. by apply byte_lt. }
  intros pre post bad. rewrite T. cbn [opt_res mbind res_bind]. unfold list_of. rewrite int_of_fmap.
  pose proof (reads_data klt cts p P [] [] (in_bad (Inp (length pre) false bad))) as R.
  cbn [length app] in R. rewrite app_nil_r in R. rewrite R. cbn. by rewrite Nat.add_0_r.
Qed.

Lemma concat_wr_pools l : concat (concat (wr_pool <$> l)) = concat ((λ p, concat (wr_pool p)) <$> l).
Proof. induction l as [|x l IH]; [done|]. rewrite !fmap_cons. cbn [concat]. by rewrite concat_app, IH. Qed.
Lemma reads_snap klt cts s : snap_ok klt cts s → reads (rd_snap klt cts) (concat (wr_snap s)) s.
Proof.
  intros (T & L & E & LP & P). destruct s as [t es ps]. cbn [s_time s_ents s_pools] in *.
  unfold wr_snap, rd_snap. cbn [s_time s_ents s_pools]. rewrite size16_fits, take_ge by done.
  rewrite (eq_refl : concat (le_bytes 8 t :: wr (TVec (TInt 4)) (VList (VInt <$> es)) ++
    le_bytes 2 (clamp16 (length ps)) :: concat (wr_pool <$> ps)) =
    le_bytes 8 t ++ concat (wr (TVec (TInt 4)) (VList (VInt <$> es)) ++
    le_bytes 2 (clamp16 (length ps)) :: concat (wr_pool <$> ps))).
  rewrite concat_app. rewrite (eq_refl : concat (le_bytes 2 (clamp16 (length ps)) :: concat (wr_pool <$> ps)) =
    le_bytes 2 (clamp16 (length ps)) ++ concat (concat (wr_pool <$> ps))).
  eapply (reads_bind (λ buf, rd_int buf 8 0)); [apply reads_int; exact T|].
  eapply (reads_bind (λ buf, rd klt buf (TVec (TInt 4)) (VList []))).
  { by apply reads_vec. }
  eapply (reads_bind (λ buf, rd_size buf 0)); [by apply reads_size|].
  unfold list_of. rewrite int_of_fmap. rewrite concat_wr_pools.
  apply (reads_map (λ buf, rd_each (λ _ s, rd_pool klt cts buf s) (replicate (length ps) (Pool 0 TEmpty [] []))) (Snap t es)).
  rewrite <- (list_fmap_id ps) at 2.
  apply (reads_each (λ _ buf s, rd_pool klt cts buf s) (λ p, concat (wr_pool p)) (λ _, True) (pool_ok klt cts) id).
  - intros b o Hb _. by eapply reads_pool.
  - done.
  - by apply Forall_true.
  - by rewrite replicate_length.
Qed.
Lemma receive_ok klt cts s : snap_ok klt cts s →
  receive klt cts (concat (wr_snap s)) = Ok (s, Inp (length (concat (wr_snap s))) false false).
Proof.
  intros H. pose proof (reads_snap klt cts s H [] [] false) as R. cbn [length app] in R.
  rewrite app_nil_r in R. exact R.
Qed.

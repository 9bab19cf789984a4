(** Sequences of values, containers that are too long, safety of reading
    arbitrary bytes, and output into a fixed buffer. *)
From Verif Require Import Outcome S11nModel S11nSpec S11nProofs.
From Coq Require Import Sorted.
Local Open Scope nat_scope.

Lemma val_of_ty_left klt t v : has_ty klt t v → fits v → wr_left t v = v.
Proof.
  revert v. induction t using ty_rect'; intros v T F; inversion T; subst; clear T; try done.
  - apply fits_list in F as [Fl _]. cbn [wr_left]. by rewrite size16_fits, take_ge.
  - cbn [fits] in F. cbn [wr_left]. by rewrite size16_fits, take_ge.
  - apply fits_list in F as [Fl Ff]. cbn [wr_left]. rewrite size16_fits, take_ge by done. f_equal.
    clear Fl. match goal with H : Forall _ l |- _ => rename H into Ht end.
    induction l as [|x l IH]; [done|]. apply Forall_cons in Ff as [? ?], Ht as [? ?]. rewrite fmap_cons. f_equal; auto.
  - apply fits_list in F as [_ Ff]. cbn [wr_left]. f_equal.
    match goal with H : Forall _ l |- _ => rename H into Ht end. clear - IHt Ff Ht.
    induction l as [|x l IH]; [done|]. apply Forall_cons in Ff as [? ?], Ht as [? ?]. rewrite fmap_cons. f_equal; auto.
  - cbn [fits] in F. destruct F. cbn [wr_left]. by rewrite IHt1, IHt2.
  - cbn [fits] in F. rewrite (wr_left_var _ _ t) by done. f_equal.
    rewrite Forall_forall in H. eapply H; [|done..]. by eapply elem_of_list_lookup_2.
  - cbn [fits] in F. cbn [wr_left]. by rewrite IHt.
  - apply fits_map in F as [_ Ff]. cbn [wr_left]. f_equal.
    match goal with H : Forall _ l |- _ => rename H into Ht end. clear - IHt1 IHt2 Ff Ht.
    induction l as [|[a b] l IH]; [done|]. apply Forall_cons in Ff as [[? ?] ?], Ht as [[? ?] ?]. cbn [fst snd] in *.
    rewrite fmap_cons. cbn [fst snd]. rewrite IHt1, IHt2, IH by done. done.
Qed.

(** ** Several values one after the other *)
Definition wr_all (l : list (ty * val)) : list (list N) := concat ((λ e, wr e.1 e.2) <$> l).
Lemma round_trip_all klt l olds :
  Forall2 (λ e o, good e.1 ∧ has_ty klt e.1 e.2 ∧ fits e.2 ∧ oldok e.1 o) l olds →
  reads (λ buf, rd_all klt buf (zip (fst <$> l) olds)) (concat (wr_all l)) (snd <$> l).
Proof.
  induction 1 as [|[t v] o l olds (G & T & F & O) _ IH]; [apply reads_ret|].
  unfold wr_all. rewrite !fmap_cons. cbn [concat fst snd zip_with rd_all]. rewrite concat_app.
  apply (reads_bind (λ buf, rd klt buf t o) (λ x buf s,
    '(xs, s) ← rd_all klt buf (zip (fst <$> l) olds) s; Ok (x :: xs, s)) _ _ v); [by apply round_trip|].
  by apply (reads_map (λ buf, rd_all klt buf (zip (fst <$> l) olds)) (cons v)).
Qed.

(** ** Longer containers *)
Lemma size16_limit n : size16 (size16 n) = size16 n.
Proof. rewrite !size16_min. lia. Qed.
Lemma clamp16_size n : clamp16 (size16 n) = clamp16 n.
Proof. unfold size16, clamp16, max16. lia. Qed.
Lemma take_size16_length {A} (l : list A) : length (take (size16 (length l)) l) = size16 (length l).
Proof. rewrite take_length, size16_min. lia. Qed.

(** A vector is written as its first 65535 elements. *)
Lemma wr_vec_cut t l : wr (TVec t) (VList l) = wr (TVec t) (VList (take limit16 l)).
Proof.
  cbn [wr]. rewrite take_length, size16_min.
  replace (clamp16 (limit16 `min` length l)) with (clamp16 (length l)).
  2: { rewrite <- (clamp16_size (length l)), size16_min. f_equal. lia. }
  rewrite size16_min. rewrite take_take.
  replace (((limit16 `min` length l) `min` limit16) `min` limit16) with (length l `min` limit16) by lia. done.
Qed.
Lemma wr_str_cut l : wr TStr (VList l) = wr TStr (VList (take limit16 l)).
Proof.
  cbn [wr]. rewrite take_length, size16_min.
  replace (clamp16 (limit16 `min` length l)) with (clamp16 (length l)).
  2: { rewrite <- (clamp16_size (length l)), size16_min. f_equal. lia. }
  rewrite size16_min. rewrite take_take.
  replace (((limit16 `min` length l) `min` limit16) `min` limit16) with (length l `min` limit16) by lia. done.
Qed.
Lemma wr_bits_cut l : wr TBits (VBits l) = wr TBits (VBits (take limit16 l)).
Proof.
  cbn [wr]. rewrite take_length, size16_min.
  replace (clamp16 (limit16 `min` length l)) with (clamp16 (length l)).
  2: { rewrite <- (clamp16_size (length l)), size16_min. f_equal. lia. }
  rewrite size16_min. rewrite take_take.
  replace (((limit16 `min` length l) `min` limit16) `min` limit16) with (length l `min` limit16) by lia. done.
Qed.
Lemma Forall_take_fits (P : val → Prop) n l : Forall P l → Forall P (take n l).
Proof. apply Forall_take. Qed.

Lemma vec_cut klt t l old : good t → Forall (has_ty klt t) l → Forall fits l → oldok (TVec t) old →
  reads (λ buf, rd klt buf (TVec t) old) (concat (wr (TVec t) (VList l))) (VList (take limit16 l)).
Proof.
  intros G T F O. rewrite wr_vec_cut. apply round_trip; [done| | |done].
  - constructor. by apply Forall_take.
  - apply fits_list. split; [rewrite take_length; lia|by apply Forall_take].
Qed.
Lemma str_cut klt l old : Forall (has_ty klt (TInt 1)) l →
  reads (λ buf, rd klt buf TStr old) (concat (wr TStr (VList l))) (VList (take limit16 l)).
Proof.
  intros T. rewrite wr_str_cut. apply round_trip; [done| | |done].
  - constructor. by apply Forall_take.
  - apply fits_list. split; [rewrite take_length; lia|]. apply Forall_take. eapply Forall_impl; [done|].
    intros x Hx. inversion Hx. done.
Qed.
Lemma bits_cut klt l old :
  reads (λ buf, rd klt buf TBits old) (concat (wr TBits (VBits l))) (VBits (take limit16 l)).
Proof.
  rewrite wr_bits_cut. apply round_trip; [done|constructor| |done].
  cbn [fits]. rewrite take_length. lia.
Qed.
Lemma left_cut t l : length l > limit16 → Forall (λ x, wr_left t x = x) l →
  wr_left (TVec t) (VList l) = VList (take limit16 l).
Proof.
  intros H F. cbn [wr_left]. rewrite size16_min. rewrite Nat.min_r by lia. f_equal.
  generalize limit16 as n. clear H. induction F as [|x l Hx _ IH]; intros n; [by rewrite take_nil|].
  destruct n; [done|]. cbn [take]. rewrite fmap_cons. f_equal; [done|]. apply IH.
Qed.

(** A map is written in full but only 65535 entries are read. *)
Definition entry_bytes k v (e : val * val) : list N := concat (wr k e.1) ++ concat (wr v e.2).
Lemma wr_map_bytes k v l :
  concat (wr (TMap k v) (VMap l)) = le_bytes 2 (clamp16 (length l)) ++ concat (entry_bytes k v <$> l).
Proof.
  cbn [wr concat]. f_equal. induction l as [|x l IH]; [done|]. rewrite !fmap_cons. cbn [concat].
  unfold entry_bytes at 1. by rewrite !concat_app, <- IH.
Qed.
Lemma sorted_take {A} (R : A → A → Prop) n l : StronglySorted R l → StronglySorted R (take n l).
Proof.
  intros S. revert n. induction S as [|x l _ IH F]; intros [|n]; cbn; constructor; [done|]. by apply Forall_take.
Qed.
Lemma map_cut klt k v l old :
  good (TMap k v) → has_ty klt (TMap k v) (VMap l) → Forall (λ e, fits e.1 ∧ fits e.2) l → limit16 < length l →
  oldok (TMap k v) old →
  reads (λ buf, rd klt buf (TMap k v) old)
    (le_bytes 2 (clamp16 (length l)) ++ concat (entry_bytes k v <$> take limit16 l)) (VMap (take limit16 l)).
Proof.
  intros G T F Hl O. inversion T; subst.
  replace (clamp16 (length l)) with (clamp16 (length (take limit16 l))).
  2: { rewrite take_length. unfold clamp16, limit16, max16 in *. lia. }
  rewrite <- wr_map_bytes. apply round_trip; [done| | |done].
  - constructor; [by apply Forall_take|by apply sorted_take].
  - apply fits_map. split; [rewrite take_length; lia|by apply Forall_take].
Qed.

(** ** Arbitrary bytes *)
Definition safe {A} (len : nat) (f : inp → res (A * inp)) : Prop :=
  ∀ s, in_pos s ≤ len → ∃ v s', f s = Ok (v, s') ∧ in_pos s ≤ in_pos s' ≤ len ∧
    (in_failed s = true → in_failed s' = true ∧ in_pos s' = in_pos s).
Lemma safe_ret {A} len (v : A) : safe len (λ s, Ok (v, s)).
Proof. intros s H. eexists _, _. split; [done|]. auto. Qed.
Lemma safe_bind {A B} len (f : inp → res (A * inp)) (g : A → inp → res (B * inp)) :
  safe len f → (∀ x, safe len (g x)) → safe len (λ s, '(x, s) ← f s; g x s).
Proof.
  intros Hf Hg s H. destruct (Hf s H) as (x & s1 & E & P1 & F1). rewrite E. cbn [mbind res_bind].
  destruct (Hg x s1 ltac:(lia)) as (y & s2 & E2 & P2 & F2). eexists _, _. split; [done|]. split; [lia|].
  intros Hs. destruct (F1 Hs) as [A1 A2]. destruct (F2 A1). split; [done|]. congruence.
Qed.
Lemma safe_bytes buf n : safe (length buf) (rd_bytes buf n).
Proof.
  intros s H. unfold rd_bytes. destruct (in_failed s) eqn:Ef.
  - eexists _, _. split; [done|]. auto.
  - destruct (Nat.ltb_spec (length buf) (in_pos s + n)).
    + eexists _, _. split; [done|]. cbn. split; [lia|done].
    + unfold load_at. rewrite (proj2 (Nat.leb_le _ _)) by lia. cbn. eexists _, _. split; [done|]. cbn. split; [lia|done].
Qed.
Lemma safe_bool buf old : safe (length buf) (rd_bool buf old).
Proof.
  apply (safe_bind _ (rd_bytes buf 1)); [apply safe_bytes|]. intros [x|]; [|apply safe_ret].
  intros s H. destruct (x =? 0)%N; [|destruct (x =? 1)%N]; (eexists _, _; split; [done|]; cbn; auto).
Qed.
Lemma safe_size buf c : safe (length buf) (rd_size buf c).
Proof. apply (safe_bind _ (rd_bytes buf 2)); [apply safe_bytes|]. intros o. apply safe_ret. Qed.
Lemma safe_each {A} len (f : A → inp → res (A * inp)) l : (∀ x, safe len (f x)) → safe len (rd_each f l).
Proof.
  intros Hf. induction l as [|x l IH]; [apply safe_ret|]. cbn [rd_each].
  apply (safe_bind _ (f x)); [done|]. intros y. apply (safe_bind _ (rd_each f l)); [done|]. intros z. apply safe_ret.
Qed.
Lemma safe_sets buf n is : safe (length buf) (rd_sets buf n is).
Proof.
  induction is as [|i is IH]; [apply safe_ret|]. cbn [rd_sets].
  apply (safe_bind _ (rd_set buf (Nat.min (n - i * 32) 32))).
  - apply (safe_bind _ (rd_bytes buf 4)); [apply safe_bytes|]. intros [x|]; [apply safe_ret|].
    intros s H. eexists _, _. split; [done|]. cbn. auto.
  - intros y. apply (safe_bind _ (rd_sets buf n is)); [done|]. intros z. apply safe_ret.
Qed.
Lemma safe_entries klt len (fk fv : val → inp → res (val * inp)) n k v l :
  (∀ x, safe len (fk x)) → (∀ x, safe len (fv x)) → safe len (rd_entries klt fk fv n k v l).
Proof.
  intros Hk Hv. revert k v l. induction n as [|n IH]; intros k v l; [apply safe_ret|]. cbn [rd_entries].
  apply (safe_bind _ (fk k)); [done|]. intros k'. apply (safe_bind _ (fv v)); [done|]. intros v'. apply IH.
Qed.
Lemma safe_rd klt buf t : ∀ old, safe (length buf) (rd klt buf t old).
Proof.
  induction t using ty_rect'; intros old.
  - cbn [rd]. apply (safe_bind _ (rd_bytes buf n)); [apply safe_bytes|]. intros o. apply safe_ret.
  - cbn [rd]. apply (safe_bind _ (rd_bool buf _)); [apply safe_bool|]. intros o. apply safe_ret.
  - apply safe_ret.
  - cbn [rd]. apply (safe_bind _ (rd_size buf _)); [apply safe_size|]. intros n.
    apply (safe_bind _ (rd_each _ (resized (VInt 0) n (list_of old)))).
    + apply safe_each. intros x. apply (safe_bind _ (rd_bytes buf 1)); [apply safe_bytes|]. intros o. apply safe_ret.
    + intros l. apply safe_ret.
  - cbn [rd]. apply (safe_bind _ (rd_size buf _)); [apply safe_size|]. intros n.
    apply (safe_bind _ (rd_sets buf n _)); [apply safe_sets|]. intros l. apply safe_ret.
  - cbn [rd]. apply (safe_bind _ (rd_size buf _)); [apply safe_size|]. intros n.
    apply (safe_bind _ (rd_each (rd klt buf t) _)); [by apply safe_each|]. intros l. apply safe_ret.
  - cbn [rd]. apply (safe_bind _ (rd_each (rd klt buf t) _)); [by apply safe_each|]. intros l. apply safe_ret.
  - cbn [rd]. destruct (match old with VPair x y => (x, y) | _ => (dflt t1, dflt t2) end) as [x y].
    apply (safe_bind _ (rd klt buf t1 x)); [done|]. intros x'.
    apply (safe_bind _ (rd klt buf t2 y)); [done|]. intros y'. apply safe_ret.
  - intros s Hs. rewrite rd_var. revert s Hs.
    apply (safe_bind _ (rd_bytes buf 1)); [apply safe_bytes|]. intros o.
    destruct (ts !! N.to_nat (default 0%N o)) as [t|] eqn:E; cbn [rd_alt]; [|apply safe_ret].
    rewrite Forall_forall in H. apply elem_of_list_lookup_2 in E.
    apply (safe_bind _ (rd klt buf t (dflt t))); [by apply H|]. intros x. apply safe_ret.
  - cbn [rd]. apply (safe_bind _ (rd_bool buf _)); [apply safe_bool|]. intros [|]; [|apply safe_ret].
    apply (safe_bind _ (rd klt buf t (dflt t))); [done|]. intros x. apply safe_ret.
  - cbn [rd]. apply (safe_bind _ (rd_size buf _)); [apply safe_size|]. intros n.
    apply (safe_bind _ (rd_entries klt (rd klt buf t1) (rd klt buf t2) n _ _ _)); [by apply safe_entries|].
    intros l. apply safe_ret.
Qed.
Lemma safe_all klt buf l : safe (length buf) (rd_all klt buf l).
Proof.
  induction l as [|[t v] l IH]; [apply safe_ret|]. cbn [rd_all].
  apply (safe_bind _ (rd klt buf t v)); [apply safe_rd|]. intros x.
  apply (safe_bind _ (rd_all klt buf l)); [done|]. intros xs. apply safe_ret.
Qed.

(** ** Output into a fixed buffer *)
Definition fout_ok (s : fout) : Prop := fo_pos s ≤ length (fo_buf s).
(** After the chunks [cs]: some prefix of them was stored contiguously, nothing
    else was touched, and failure is reported exactly when one did not fit. *)
Lemma fwrites_failed s cs : fo_failed s = true → fwrites s cs = Ok s.
Proof. intros H. induction cs as [|c cs IH]; [done|]. cbn [fwrites]. unfold fwrite. rewrite H. exact IH. Qed.
Lemma fwrites_spec cs : ∀ s, fout_ok s → fo_failed s = false →
  ∃ n, n ≤ length cs ∧
    fwrites s cs = Ok (FOut (take (fo_pos s) (fo_buf s) ++ concat (take n cs) ++
                             drop (fo_pos s + length (concat (take n cs))) (fo_buf s))
                            (fo_pos s + length (concat (take n cs))) (bool_decide (n < length cs))) ∧
    fo_pos s + length (concat (take n cs)) ≤ length (fo_buf s) ∧
    (∀ c, cs !! n = Some c → length (fo_buf s) < fo_pos s + length (concat (take (S n) cs))).
Proof.
  induction cs as [|c cs IH]; intros s K F.
  - exists 0. split; [done|]. cbn. rewrite !Nat.add_0_r, take_drop. split; [|split; [exact K|done]].
    destruct s; cbn in *. by subst.
  - cbn [fwrites]. unfold fwrite. rewrite F. destruct (Nat.ltb_spec (length (fo_buf s)) (fo_pos s + length c)) as [L|L].
    + exists 0. split; [lia|]. cbn [mbind res_bind]. rewrite fwrites_failed by done. cbn [take concat length app].
      rewrite !Nat.add_0_r, take_drop, app_nil_r. rewrite bool_decide_true by lia.
      split; [done|]. split; [exact K|]. intros _ _. exact L.
    + unfold store_at. rewrite (proj2 (Nat.leb_le _ _)) by lia. cbn [require_ mbind res_bind].
      set (b := take (fo_pos s) (fo_buf s) ++ c ++ drop (fo_pos s + length c) (fo_buf s)).
      assert (Hb : length b = length (fo_buf s)).
      { unfold b. rewrite !app_length, take_length, drop_length. lia. }
      destruct (IH (FOut b (fo_pos s + length c) false)) as (n & Hn & E & Hp & Hc).
      { unfold fout_ok. cbn. lia. }
      { done. }
      cbn [fo_pos fo_buf] in *. exists (S n). split; [cbn; lia|]. rewrite E. cbn [take concat].
      rewrite app_length, Nat.add_assoc. split.
      * assert (X1 : take (fo_pos s + length c) b = take (fo_pos s) (fo_buf s) ++ c).
        { unfold b. rewrite app_assoc. rewrite take_app_alt; [done|]. rewrite app_length, take_length.
          unfold fout_ok in K. lia. }
        assert (X2 : ∀ m, drop (fo_pos s + length c + m) b = drop (fo_pos s + length c + m) (fo_buf s)).
        { intros m. unfold b. rewrite app_assoc. rewrite drop_app_ge.
          2: { rewrite app_length, take_length. lia. }
          rewrite drop_drop, app_length, take_length. f_equal. unfold fout_ok in K. lia. }
        rewrite X1, X2, <- !app_assoc. repeat f_equal. apply bool_decide_ext. cbn. lia.
      * split; [lia|]. intros c' Hc'. cbn [lookup list_lookup] in Hc'. specialize (Hc c' Hc').
        rewrite Hb in Hc. cbn [take concat] in Hc |- *. rewrite app_length. destruct cs; cbn [take concat] in *; [done|].
        rewrite Nat.add_assoc. exact Hc.
Qed.

(** ** Truncated input *)
(** [f1] and [f2] are the same reader on a buffer and on an extension of it. *)
Definition mono {A} (f1 f2 : inp → res (A * inp)) : Prop :=
  (∀ s v s', f1 s = Ok (v, s') → in_failed s = true → in_failed s' = true) ∧
  (∀ s v s', f1 s = Ok (v, s') → in_failed s' = false → f2 s = Ok (v, s')).
Lemma mono_ret {A} (v : A) : mono (λ s, Ok (v, s)) (λ s, Ok (v, s)).
Proof. split; [by intros s w s' [= _ ->]|done]. Qed.
Lemma mono_bind {A B} (f1 f2 : inp → res (A * inp)) (g1 g2 : A → inp → res (B * inp)) :
  mono f1 f2 → (∀ x, mono (g1 x) (g2 x)) →
  mono (λ s, '(x, s) ← f1 s; g1 x s) (λ s, '(x, s) ← f2 s; g2 x s).
Proof.
  intros [F1 F2] G. split.
  - intros s v s' E Hs. destruct (f1 s) as [[x s1]| | |] eqn:Ef; try done. cbn [mbind res_bind] in E.
    eapply (proj1 (G x)); eauto.
  - intros s v s' E Hs. destruct (f1 s) as [[x s1]| | |] eqn:Ef; try done. cbn [mbind res_bind] in E.
    rewrite (F2 _ _ _ Ef).
    + cbn [mbind res_bind]. by eapply (proj2 (G x)).
    + destruct (in_failed s1) eqn:E1; [|done]. pose proof (proj1 (G x) _ _ _ E E1). congruence.
Qed.
Section trunc.
Variables (klt : val → val → bool) (b1 b2 : list N).
Notation b := (b1 ++ b2).
Lemma mono_bytes n : mono (rd_bytes b1 n) (rd_bytes b n).
Proof.
  unfold rd_bytes. split.
  - intros s v s' E Hs. rewrite Hs in E. injection E as _ <-. done.
  - intros s v s' E Hs. destruct (in_failed s); [exact E|].
    destruct (Nat.ltb_spec (length b1) (in_pos s + n)) as [L|L]; [injection E as <- <-; done|].
    rewrite app_length. rewrite (proj2 (Nat.ltb_ge _ _)) by lia.
    unfold load_at in *. rewrite (proj2 (Nat.leb_le _ _)) in E by lia. rewrite app_length.
    rewrite (proj2 (Nat.leb_le _ _)) by lia. cbn [require_ mbind res_bind] in *.
    rewrite drop_app_le by lia. rewrite take_app_le by (rewrite drop_length; lia). done.
Qed.
Lemma mono_mark {A} (v : A) : mono (λ s, Ok (v, mark_bad s)) (λ s, Ok (v, mark_bad s)).
Proof. split; [by intros s w s' [= _ <-]|done]. Qed.
Lemma mono_bool old : mono (rd_bool b1 old) (rd_bool b old).
Proof.
  apply mono_bind; [apply mono_bytes|]. intros [x|]; [|apply mono_ret].
  destruct (x =? 0)%N; [apply mono_ret|]. destruct (x =? 1)%N; [apply mono_ret|apply mono_mark].
Qed.
Lemma mono_size c : mono (rd_size b1 c) (rd_size b c).
Proof. apply mono_bind; [apply mono_bytes|]. intros o. apply mono_ret. Qed.
Lemma mono_each {A} (f1 f2 : A → inp → res (A * inp)) l : (∀ x, mono (f1 x) (f2 x)) → mono (rd_each f1 l) (rd_each f2 l).
Proof.
  intros Hf. induction l as [|x l IH]; [apply mono_ret|]. cbn [rd_each].
  apply (mono_bind (f1 x) (f2 x)); [done|]. intros y.
  apply (mono_bind (rd_each f1 l) (rd_each f2 l)); [done|]. intros z. apply mono_ret.
Qed.
Lemma mono_sets n is : mono (rd_sets b1 n is) (rd_sets b n is).
Proof.
  induction is as [|i is IH]; [apply mono_ret|]. cbn [rd_sets].
  apply (mono_bind (rd_set b1 _) (rd_set b _)).
  - apply mono_bind; [apply mono_bytes|]. intros [x|]; [apply mono_ret|apply mono_mark].
  - intros y. apply (mono_bind (rd_sets b1 n is) (rd_sets b n is)); [done|]. intros z. apply mono_ret.
Qed.
Lemma mono_entries (k1 k2 v1 v2 : val → inp → res (val * inp)) n k v l :
  (∀ x, mono (k1 x) (k2 x)) → (∀ x, mono (v1 x) (v2 x)) →
  mono (rd_entries klt k1 v1 n k v l) (rd_entries klt k2 v2 n k v l).
Proof.
  intros Hk Hv. revert k v l. induction n as [|n IH]; intros k v l; [apply mono_ret|]. cbn [rd_entries].
  apply (mono_bind (k1 k) (k2 k)); [done|]. intros k'. apply (mono_bind (v1 v) (v2 v)); [done|]. intros v'. apply IH.
Qed.
Lemma mono_rd t : ∀ old, mono (rd klt b1 t old) (rd klt b t old).
Proof.
  induction t using ty_rect'; intros old.
  - cbn [rd]. apply mono_bind; [apply mono_bytes|]. intros o. apply mono_ret.
  - cbn [rd]. apply mono_bind; [apply mono_bool|]. intros o. apply mono_ret.
  - apply mono_ret.
  - cbn [rd]. apply mono_bind; [apply mono_size|]. intros n. apply mono_bind; [|intros l; apply mono_ret].
    apply mono_each. intros x. apply mono_bind; [apply mono_bytes|]. intros o. apply mono_ret.
  - cbn [rd]. apply mono_bind; [apply mono_size|]. intros n. apply mono_bind; [|intros l; apply mono_ret].
    apply mono_sets.
  - cbn [rd]. apply mono_bind; [apply mono_size|]. intros n. apply mono_bind; [|intros l; apply mono_ret].
    by apply mono_each.
  - cbn [rd]. apply mono_bind; [|intros l; apply mono_ret]. by apply mono_each.
  - cbn [rd]. destruct (match old with VPair x y => (x, y) | _ => (dflt t1, dflt t2) end) as [x y].
    apply mono_bind; [done|]. intros x'. apply mono_bind; [done|]. intros y'. apply mono_ret.
  - assert (M : mono (λ s, '(o, s) ← rd_bytes b1 1 s;
        rd_alt klt b1 old (N.to_nat (default 0%N o)) (ts !! N.to_nat (default 0%N o)) s)
      (λ s, '(o, s) ← rd_bytes b 1 s; rd_alt klt b old (N.to_nat (default 0%N o)) (ts !! N.to_nat (default 0%N o)) s)).
    { apply mono_bind; [apply mono_bytes|]. intros o.
      destruct (ts !! N.to_nat (default 0%N o)) as [t|] eqn:E; cbn [rd_alt]; [|apply mono_ret].
      rewrite Forall_forall in H. apply elem_of_list_lookup_2 in E.
      apply mono_bind; [by apply H|]. intros x. apply mono_ret. }
    destruct M as [M1 M2]. split; intros s v s' E; rewrite rd_var in E; [by eapply M1|]. rewrite rd_var. by apply M2.
  - cbn [rd]. apply mono_bind; [apply mono_bool|]. intros [|]; [|apply mono_ret].
    apply mono_bind; [done|]. intros x. apply mono_ret.
  - cbn [rd]. apply mono_bind; [apply mono_size|]. intros n. apply mono_bind; [|intros l; apply mono_ret].
    by apply mono_entries.
Qed.
Lemma mono_all l : mono (rd_all klt b1 l) (rd_all klt b l).
Proof.
  induction l as [|[t v] l IH]; [apply mono_ret|]. cbn [rd_all].
  apply (mono_bind (rd klt b1 t v) (rd klt b t v)); [apply mono_rd|]. intros x.
  apply (mono_bind (rd_all klt b1 l) (rd_all klt b l)); [done|]. intros xs. apply mono_ret.
Qed.
End trunc.
Lemma truncated_all klt l olds pre n bad :
  Forall2 (λ e o, good e.1 ∧ has_ty klt e.1 e.2 ∧ fits e.2 ∧ oldok e.1 o) l olds →
  n < length (concat (wr_all l)) →
  ∃ vs s', rd_all klt (pre ++ take n (concat (wr_all l))) (zip (fst <$> l) olds) (Inp (length pre) false bad) = Ok (vs, s') ∧
    in_failed s' = true.
Proof.
  intros F Hn. set (bs := concat (wr_all l)) in *.
  destruct (safe_all klt (pre ++ take n bs) (zip (fst <$> l) olds) (Inp (length pre) false bad)) as (v & s' & E & P & _).
  { cbn. rewrite app_length. lia. }
  exists v, s'. split; [done|]. destruct (in_failed s') eqn:Ef; [done|]. exfalso.
  apply (proj2 (mono_all klt (pre ++ take n bs) (drop n bs) _)) in E; [|done].
  rewrite <- app_assoc, take_drop in E.
  pose proof (round_trip_all klt l olds F pre [] bad) as R. rewrite app_nil_r in R. fold bs in R.
  rewrite R in E. injection E as _ <-. cbn in P. rewrite app_length, take_length in P. lia.
Qed.

(** Theorems for C24 and C25. *)
From Verif Require Import Outcome S11nModel S11nSpec S11nProofs S11nMore.
From Coq Require Import Sorted.
Local Open Scope nat_scope.

(** An object that can be read into: a new one, or one that forgets. *)
Definition target klt (t : ty) (old : val) : Prop := old = dflt t ∨ (resets t ∧ has_ty klt t old).
Lemma target_old klt t old : target klt t old → oldok t old.
Proof. intros [->|[R T]]; [apply dflt_old|by eapply resets_old]. Qed.
Definition storable klt (e : ty * val) (old : val) : Prop :=
  good e.1 ∧ has_ty klt e.1 e.2 ∧ fits e.2 ∧ target klt e.1 old.
Lemma storable_old klt l olds : Forall2 (storable klt) l olds →
  Forall2 (λ e o, good e.1 ∧ has_ty klt e.1 e.2 ∧ fits e.2 ∧ oldok e.1 o) l olds.
Proof. intros F. eapply Forall2_impl; [exact F|]. intros e o (G & T & X & O). split_and!; try done. by eapply target_old. Qed.

(** C24: any sequence of values written behind any bytes and followed by any
    others reads back, consuming exactly what was written. *)
Theorem c24_round_trip klt l olds before after bad :
  Forall2 (storable klt) l olds →
  rd_all klt (out_bytes before (wr_all l) ++ after) (zip (fst <$> l) olds) (Inp (length before) false bad) =
  Ok (snd <$> l, Inp (length (out_bytes before (wr_all l))) false bad).
Proof.
  intros F%storable_old. unfold out_bytes. rewrite <- app_assoc.
  rewrite (round_trip_all klt l olds F before after bad). by rewrite app_length.
Qed.
(** Writing leaves such values as they were. *)
Theorem c24_source_unchanged klt t v : has_ty klt t v → fits v → wr_left t v = v.
Proof. apply val_of_ty_left. Qed.
(** Longer vectors, strings and bit vectors come back as their first 65535
    elements. *)
Theorem c24_vector_cut klt t l old pre post bad :
  good t → Forall (has_ty klt t) l → Forall fits l → target klt (TVec t) old →
  rd klt (pre ++ concat (wr (TVec t) (VList l)) ++ post) (TVec t) old (Inp (length pre) false bad) =
  Ok (VList (take limit16 l), Inp (length pre + length (concat (wr (TVec t) (VList l)))) false bad).
Proof. intros G T F O%target_old. by apply vec_cut. Qed.
Theorem c24_string_cut klt l old pre post bad :
  Forall (has_ty klt (TInt 1)) l →
  rd klt (pre ++ concat (wr TStr (VList l)) ++ post) TStr old (Inp (length pre) false bad) =
  Ok (VList (take limit16 l), Inp (length pre + length (concat (wr TStr (VList l)))) false bad).
Proof. intros T. by apply str_cut. Qed.
Theorem c24_bits_cut klt l old pre post bad :
  rd klt (pre ++ concat (wr TBits (VBits l)) ++ post) TBits old (Inp (length pre) false bad) =
  Ok (VBits (take limit16 l), Inp (length pre + length (concat (wr TBits (VBits l)))) false bad).
Proof. apply bits_cut. Qed.
(** Packed booleans take two bytes of count and the fewest 32-bit words that hold them. *)
Lemma bits_size l : length l ≤ limit16 →
  ∃ k, length (concat (wr TBits (VBits l))) = 2 + 4 * k ∧ length l ≤ 32 * k ∧
  ∀ j, length l ≤ 32 * j → k ≤ j.
Proof.
  intros L. exists (num_sets (length l)).
  assert (take (size16 (length l)) l = l) as E.
  { apply take_ge. unfold size16, clamp16, max16, limit16 in *. lia. }
  split_and!.
  - cbn [wr concat]. rewrite app_length, le_bytes_length, E. unfold bits_chunks.
    assert (∀ f (xs : list nat), length (concat ((λ i, le_bytes 4 (f i)) <$> xs)) = 4 * length xs) as K.
    { intros f xs. induction xs as [|x xs IH]; [done|]. cbn [fmap list_fmap concat].
      rewrite app_length, le_bytes_length, IH. cbn [length]. lia. }
    rewrite K, seq_length. done.
  - pose proof (num_sets_ge (length l)). lia.
  - intros j Hj. unfold num_sets. pose proof (Nat.div_mod (length l) 32 ltac:(lia)).
    pose proof (Nat.mod_upper_bound (length l) 32 ltac:(lia)).
    destruct (Nat.eqb_spec (length l mod 32) 0); lia.
Qed.
Theorem c24_bits_size l : length l ≤ limit16 →
  ∃ k, length (concat (wr TBits (VBits l))) = 2 + 4 * k ∧ length l ≤ 32 * k ∧
  ∀ j, length l ≤ 32 * j → k ≤ j.
Proof. exact (bits_size l). Qed.
Print Assumptions c24_bits_size.
(** The vector that was written is itself cut by writing it. *)
Theorem c24_source_cut_refuted :
  ∃ t v, has_ty (λ _ _, false) t v ∧ wr_left t v ≠ v.
Proof.
  exists (TVec TEmpty), (VList (replicate (S limit16) VUnit)). split.
  - constructor. apply Forall_replicate. constructor.
  - rewrite left_cut.
    + intros E. apply (f_equal (λ v, length (list_of v))) in E. cbn [list_of] in E.
      rewrite take_length, !replicate_length in E. lia.
    + rewrite replicate_length. lia.
    + by apply Forall_replicate.
Qed.
(** A longer map: everything is written, 65535 entries are read, and the
    position ends up before the remaining entries, without failure. *)
Theorem c24_long_map klt k v l old pre post bad :
  good (TMap k v) → has_ty klt (TMap k v) (VMap l) → Forall (λ e, fits e.1 ∧ fits e.2) l → limit16 < length l →
  target klt (TMap k v) old →
  ∃ pos, rd klt (pre ++ concat (wr (TMap k v) (VMap l)) ++ post) (TMap k v) old (Inp (length pre) false bad) =
    Ok (VMap (take limit16 l), Inp pos false bad) ∧
    length pre + length (concat (wr (TMap k v) (VMap l))) =
      pos + length (concat ((λ e, concat (wr k e.1) ++ concat (wr v e.2)) <$> drop limit16 l)).
Proof.
  intros G T F L O%target_old.
  pose proof (map_cut klt k v l old G T F L O pre (concat (entry_bytes k v <$> drop limit16 l) ++ post) bad) as R.
  eexists. split.
  - rewrite wr_map_bytes. rewrite <- (take_drop limit16 l) at 2. rewrite fmap_app, concat_app, <- !app_assoc.
    rewrite <- !app_assoc in R. exact R.
  - rewrite wr_map_bytes. rewrite <- (take_drop limit16 l) at 2. rewrite fmap_app, concat_app, !app_length.
    unfold entry_bytes. lia.
Qed.
Definition int_lt (a b : val) : bool :=
  match a, b with VInt x, VInt y => (x <? y)%N | _, _ => false end.
Lemma seq_entries_ty n : (N.of_nat n ≤ 256 ^ N.of_nat 4)%N →
  has_ty int_lt (TMap (TInt 4) TEmpty) (VMap ((λ i, (VInt (N.of_nat i), VUnit)) <$> seq 0 n)).
Proof.
  intros H. constructor.
  - apply Forall_fmap, Forall_forall. intros i Hi. apply elem_of_seq in Hi. cbn [compose fst snd].
    split; constructor. lia.
  - clear H. generalize 0 as m. induction n as [|n IH]; intros m; cbn [seq fmap list_fmap]; constructor; [apply IH|].
    apply Forall_fmap, Forall_forall. intros i Hi. apply elem_of_seq in Hi. cbn. apply N.ltb_lt. lia.
Qed.
Lemma limit16_N : N.of_nat limit16 = 65535%N.
Proof. unfold limit16. apply N2Nat.id. Qed.
Theorem c24_long_map_refuted :
  ∃ klt k v l pos, good (TMap k v) ∧ has_ty klt (TMap k v) (VMap l) ∧
    rd klt (concat (wr (TMap k v) (VMap l))) (TMap k v) (dflt (TMap k v)) (Inp 0 false false) =
      Ok (VMap (take limit16 l), Inp pos false false) ∧
    take limit16 l ≠ l ∧ pos < length (concat (wr (TMap k v) (VMap l))).
Proof.
  assert (∃ l, length l = S limit16 ∧ has_ty int_lt (TMap (TInt 4) TEmpty) (VMap l) ∧
    Forall (λ e, fits e.1 ∧ fits e.2) l ∧ drop limit16 l = [(VInt (N.of_nat limit16), VUnit)]) as (l & Hl & Ht & Hf & Hd).
  { exists ((λ i, (VInt (N.of_nat i), VUnit)) <$> seq 0 (S limit16)). split_and!.
    - by rewrite fmap_length, seq_length.
    - apply seq_entries_ty. rewrite Nat2N.inj_succ, limit16_N. change (256 ^ N.of_nat 4)%N with 4294967296%N. lia.
    - apply Forall_fmap, Forall_forall. intros i _. split; exact I.
    - rewrite seq_S, fmap_app. rewrite drop_app_alt; [reflexivity|]. by rewrite fmap_length, seq_length. }
  destruct (c24_long_map int_lt (TInt 4) TEmpty l (dflt (TMap (TInt 4) TEmpty)) [] [] false) as (pos & E & P).
  - split_and!; exact I.
  - exact Ht.
  - exact Hf.
  - rewrite Hl. apply Nat.lt_succ_diag_r.
  - left. reflexivity.
  - exists int_lt, (TInt 4), TEmpty, l, pos. split; [split_and!; exact I|]. split; [exact Ht|]. split.
    + rewrite app_nil_r in E. exact E.
    + split.
      * intros X. apply (f_equal length) in X. rewrite take_length, Hl in X. revert X. generalize limit16. lia.
      * cbn [length] in P. rewrite Nat.add_0_l in P. rewrite P, Hd.
        cbn [fmap list_fmap concat]. rewrite !app_length. cbn [wr concat fst snd]. rewrite app_length, le_bytes_length.
        cbn [length]. lia.
Qed.
(** Without the conditions on types and targets the round trip fails: a map of
    maps mixes entries, a map keeps its old entries, equal alternatives of a
    variant are not told apart. *)
Lemma small16 n : n ≤ 100 → n ≤ limit16.
Proof. unfold limit16. lia. Qed.
Ltac fit :=
  lazymatch goal with
  | |- fits (VMap _) => apply fits_map; fit
  | |- fits (VList _) => apply fits_list; fit
  | |- fits (VPair _ _) => split; fit
  | |- fits (VVar _ ?v) => change (fits v); fit
  | |- fits (VSome ?v) => change (fits v); fit
  | |- fits (VBits ?l) => change (length l ≤ limit16); fit
  | |- fits _ => exact I
  | |- _ ∧ _ => split; fit
  | |- _ ≤ limit16 => apply small16, leb_complete; vm_compute; reflexivity
  | |- Forall _ [] => apply Forall_nil_2
  | |- Forall _ (_ :: _) => apply Forall_cons_2; cbn [fst snd]; fit
  end.
Definition bytes_of (l : list nat) : val := VMap ((λ i, (VInt (N.of_nat i), VInt (N.of_nat i))) <$> l).
Theorem c24_map_of_maps_refuted :
  ∃ v v' s', has_ty int_lt (TMap (TInt 1) (TMap (TInt 1) (TInt 1))) v ∧ fits v ∧
    rd int_lt (concat (wr (TMap (TInt 1) (TMap (TInt 1) (TInt 1))) v)) (TMap (TInt 1) (TMap (TInt 1) (TInt 1)))
       (dflt (TMap (TInt 1) (TMap (TInt 1) (TInt 1)))) (Inp 0 false false) = Ok (v', s') ∧ v' ≠ v.
Proof.
  exists (VMap [(VInt 1, bytes_of [1]); (VInt 2, bytes_of [2])]). eexists _, _. split_and!.
  - repeat constructor.
  - unfold bytes_of; cbn [fmap list_fmap]; fit.
  - vm_compute. reflexivity.
  - discriminate.
Qed.
Theorem c24_map_target_refuted :
  ∃ old v v' s', has_ty int_lt (TMap (TInt 1) (TInt 1)) old ∧ has_ty int_lt (TMap (TInt 1) (TInt 1)) v ∧ fits v ∧
    rd int_lt (concat (wr (TMap (TInt 1) (TInt 1)) v)) (TMap (TInt 1) (TInt 1)) old (Inp 0 false false) = Ok (v', s') ∧ v' ≠ v.
Proof.
  exists (bytes_of [1]), (bytes_of [2]). eexists _, _. split_and!.
  - repeat constructor.
  - repeat constructor.
  - unfold bytes_of; cbn [fmap list_fmap]; fit.
  - vm_compute. reflexivity.
  - discriminate.
Qed.
Theorem c24_variant_refuted :
  ∃ v v' s', has_ty int_lt (TVar [TInt 1; TInt 1]) v ∧ fits v ∧
    rd int_lt (concat (wr (TVar [TInt 1; TInt 1]) v)) (TVar [TInt 1; TInt 1]) (dflt (TVar [TInt 1; TInt 1]))
      (Inp 0 false false) = Ok (v', s') ∧ v' ≠ v.
Proof.
  exists (VVar 1 (VInt 5)). eexists _, _. split_and!.
  - econstructor; [done|]. by constructor.
  - done.
  - vm_compute. reflexivity.
  - discriminate.
Qed.
(** A case: a pair of a map and a variant, and an optional bit vector, read into
    objects of which one holds something else. *)
Definition ex_ty1 : ty := TPair (TMap (TInt 2) (TVec TBool)) (TVar [TInt 1; TStr]).
Definition ex_v1 : val :=
  VPair (VMap [(VInt 3, VList [VBool true; VBool false]); (VInt 400, VList [])]) (VVar 1 (VList [VInt 65; VInt 66])).
Definition ex_v2 : val := VSome (VBits (replicate 33 true)).
Example c24_case :
  Forall2 (storable int_lt) [(ex_ty1, ex_v1); (TOpt TBits, ex_v2)] [dflt ex_ty1; VSome (VBits [false])] ∧
  length (concat (wr_all [(ex_ty1, ex_v1); (TOpt TBits, ex_v2)])) = 28.
Proof.
  split; [|vm_compute; reflexivity]. constructor; [|constructor; [|constructor]]; unfold storable; cbn [fst snd].
  - split_and!.
    + cbn. split_and!; try done; [|lia]. repeat constructor; set_solver.
    + unfold ex_ty1, ex_v1. constructor; [repeat constructor|]. econstructor; [done|]. repeat constructor.
    + unfold ex_v1. fit.
    + by left.
  - split_and!; [done|repeat constructor|unfold ex_v2; fit|].
    right. split; [done|]. repeat constructor.
Qed.

(** C25: reading any list of types into any objects from any bytes touches no
    byte outside the buffer (the outcome is never UB), never moves backwards,
    and a failed archive stays failed and where it is. *)
Theorem c25_in_bounds klt buf l s :
  in_pos s ≤ length buf →
  ∃ vs s', rd_all klt buf l s = Ok (vs, s') ∧ in_pos s ≤ in_pos s' ≤ length buf ∧
    (in_failed s = true → in_failed s' = true ∧ in_pos s' = in_pos s).
Proof. apply safe_all. Qed.
(** A value cut short is always reported. *)
Theorem c25_truncation_detected klt l olds before n bad :
  Forall2 (storable klt) l olds → n < length (concat (wr_all l)) →
  ∃ vs s', rd_all klt (before ++ take n (concat (wr_all l))) (zip (fst <$> l) olds) (Inp (length before) false bad) =
    Ok (vs, s') ∧ in_failed s' = true.
Proof. intros F%storable_old. by apply truncated_all. Qed.
(** Output into a buffer of fixed size: no byte outside is written, a prefix of
    the pieces is stored without gaps and the rest of the buffer is untouched;
    failure is reported exactly when a piece did not fit. *)
Theorem c25_fixed_output buf pos cs :
  pos ≤ length buf →
  ∃ n s', fwrites (FOut buf pos false) cs = Ok s' ∧ n ≤ length cs ∧
    let stored := concat (take n cs) in
    fo_buf s' = take pos buf ++ stored ++ drop (pos + length stored) buf ∧
    (fo_pos s' = pos + length stored ∧ pos + length stored ≤ length buf) ∧
    (fo_failed s' = true ↔ n < length cs) ∧
    (n < length cs → length buf < pos + length (concat (take (S n) cs))).
Proof.
  intros H. destruct (fwrites_spec cs (FOut buf pos false) H eq_refl) as (n & Hn & E & P & C). cbn [fo_buf fo_pos] in *.
  exists n. eexists. split; [exact E|]. cbn [fo_buf fo_pos fo_failed]. split_and!; try done.
  - apply bool_decide_eq_true.
  - intros Hlt. destruct (lookup_lt_is_Some_2 cs n Hlt) as [c Hc]. by eapply C.
Qed.
(** When it all fits, the result is the one of the growing archive. *)
Theorem c25_fixed_output_same buf cs :
  length (concat cs) ≤ length buf →
  ∃ s', fwrites (FOut buf 0 false) cs = Ok s' ∧ fo_failed s' = false ∧
    take (fo_pos s') (fo_buf s') = out_bytes [] cs.
Proof.
  intros H. destruct (c25_fixed_output buf 0 cs ltac:(lia)) as (n & s' & E & Hn & B & P & F & C).
  assert (n = length cs) as ->.
  { destruct (decide (n < length cs)) as [L|L]; [|lia]. specialize (C L).
    assert (length (concat (take (S n) cs)) ≤ length (concat cs)).
    { rewrite <- (take_drop (S n) cs) at 2. rewrite concat_app, app_length. lia. }
    lia. }
  rewrite (take_ge cs) in B, P by lia. exists s'. split; [done|]. split.
  - destruct (fo_failed s'); [|done]. pose proof (proj1 F eq_refl). lia.
  - rewrite B. destruct P as [-> _]. unfold out_bytes. rewrite take_0, !app_nil_l, Nat.add_0_l. by rewrite take_app_alt.
Qed.
(** Reading in bounds does not mean reading a value: a boolean byte other than 0
    and 1, and a bit vector cut short, make the reader use a variable without
    a defined value. *)
Theorem c25_defined_refuted :
  ∃ buf1 buf2 v1 s1 v2 s2,
    rd int_lt buf1 TBool (VBool false) (Inp 0 false false) = Ok (v1, s1) ∧ in_failed s1 = false ∧ in_bad s1 = true ∧
    rd int_lt buf2 TBits (VBits []) (Inp 0 false false) = Ok (v2, s2) ∧ in_failed s2 = true ∧ in_bad s2 = true.
Proof. exists [2]%N, [1; 0]%N. do 4 eexists. split_and!; vm_compute; reflexivity. Qed.
Example c25_case :
  ∃ vs s', rd_all int_lt [3; 0; 1; 7; 9]%N [(TVec TBool, VList []); (TInt 4, VInt 8); (TInt 1, VInt 6)] (Inp 0 false false) =
    Ok (vs, s') ∧ in_pos s' = 5 ∧ in_failed s' = true ∧ vs !! 1 = Some (VInt 8) ∧ vs !! 2 = Some (VInt 6).
Proof. eexists _, _. split_and!; vm_compute; reflexivity. Qed.
Example c25_case_fixed :
  fwrites (FOut [9; 9; 9; 9]%N 1 false) [[1; 2]; [3; 4]; [5]]%N = Ok (FOut [9; 1; 2; 9]%N 3 true).
Proof. vm_compute. reflexivity. Qed.

Print Assumptions c24_round_trip.
Print Assumptions c24_source_unchanged.
Print Assumptions c24_vector_cut.
Print Assumptions c24_string_cut.
Print Assumptions c24_bits_cut.
Print Assumptions c24_source_cut_refuted.
Print Assumptions c24_long_map.
Print Assumptions c24_long_map_refuted.
Print Assumptions c24_map_of_maps_refuted.
Print Assumptions c24_map_target_refuted.
Print Assumptions c24_variant_refuted.
Print Assumptions c25_in_bounds.
Print Assumptions c25_truncation_detected.
Print Assumptions c25_fixed_output.
Print Assumptions c25_fixed_output_same.
Print Assumptions c25_defined_refuted.

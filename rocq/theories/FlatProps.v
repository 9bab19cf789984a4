(** Property theorems: flat_nested_array (C41). *)
From Verif Require Import Outcome FlatModel.

(** Specification: an array of arrays; values pushed before the first array
    belong to none. *)
Inductive fop (T : Type) := FArray | FPush (x : T).
Arguments FArray {_}.
Arguments FPush {_} _.
Definition fspec {T} (a : list (list T)) (o : fop T) : list (list T) :=
  match o with
  | FArray => a ++ [[]]
  | FPush x => match last a with
               | None => []
               | Some l => take (length a - 1) a ++ [l ++ [x]]
               end
  end.
Definition fstep {T} (f : flat T) (o : fop T) : flat T :=
  match o with FArray => push_array f | FPush x => push_back f x end.

(** Representation: a prefix belonging to no array, then the arrays. *)
Definition frel {T} (a : list (list T)) (f : flat T) : Prop :=
  ∃ pre, fa_data f = pre ++ concat a ∧ length (fa_starts f) = length a ∧
    ∀ i, i < length a → fa_starts f !! i = Some (length pre + length (concat (take i a))).

Lemma concat_take_le {T} (a : list (list T)) i : length (concat (take i a)) ≤ length (concat a).
Proof. rewrite <- (take_drop i a) at 2. rewrite concat_app, app_length. lia. Qed.

Lemma fstep_rel {T} (a : list (list T)) f o : frel a f → frel (fspec a o) (fstep f o).
Proof.
  intros (pre & Hd & Hl & Hs). destruct o as [|x]; simpl.
  - exists pre. simpl. split_and!.
    + rewrite concat_app. simpl. by rewrite app_nil_r.
    + rewrite !app_length, Hl. done.
    + intros i Hi. rewrite app_length in Hi. simpl in Hi. destruct (decide (i < length a)).
      * rewrite lookup_app_l by lia. rewrite Hs by done. by rewrite take_app_le by lia.
      * rewrite lookup_app_r by lia. replace (i - length (fa_starts f)) with 0 by lia. simpl.
        rewrite Hd, app_length. rewrite take_app_alt by lia. done.
  - destruct a as [|l a _] using rev_ind.
    + simpl. exists (pre ++ [x]). simpl in *. rewrite app_nil_r in *. split_and!; [by rewrite Hd|done|lia].
    + rewrite last_snoc, app_length. simpl. rewrite Nat.add_sub, take_app.
      exists pre. simpl. rewrite app_length in *. simpl in *. split_and!.
      * rewrite Hd, !concat_app. simpl. rewrite !app_nil_r. by rewrite <- !(assoc_L (++)).
      * rewrite Hl. done.
      * intros i Hi. rewrite Hs by lia. by rewrite !take_app_le by lia.
Qed.
Lemma frun_rel {T} (ops : list (fop T)) : ∀ a f, frel a f → frel (foldl fspec a ops) (foldl fstep f ops).
Proof. induction ops as [|o ops IH]; intros a f H; simpl; [done|]. apply IH. by apply fstep_rel. Qed.

(** After every sequence of pushes: the number of arrays, the size of each and
    every element read are those of the array of arrays; out-of-range indices
    trip the assertion and no access leaves the storage. *)
Theorem C41_flat_nested_array {T} (ops : list (fop T)) :
  let a := foldl fspec [] ops in
  let f := foldl fstep fa_empty ops in
  fa_size f = length a ∧
  (∀ i l, a !! i = Some l → ∃ start, fa_inner f i = Ok (start, length l) ∧
     ∀ j, fa_get f i j = match l !! j with Some x => Ok x | None => AssertFail end) ∧
  (∀ i j, i ≥ length a → fa_inner f i = AssertFail ∧ fa_get f i j = AssertFail).
Proof.
  intros a f. assert (HR : frel a f).
  { apply frun_rel. exists []. simpl. split_and!; [done|done|]. intros i Hi. lia. }
  clearbody a f. destruct HR as (pre & Hd & Hl & Hs). split_and!; [done| |].
  - intros i l Hi. pose proof (lookup_lt_Some _ _ _ Hi) as Hlt.
    assert (Hsplit : a = take i a ++ l :: drop (S i) a) by (by rewrite take_drop_middle).
    assert (Hcat : concat a = concat (take i a) ++ l ++ concat (drop (S i) a)) by (rewrite Hsplit at 1; by rewrite concat_app).
    assert (Hin : fa_inner f i = Ok (length pre + length (concat (take i a)), length l)).
    { unfold fa_inner. rewrite bool_decide_true by lia. cbn [assert_ mbind res_bind].
      rewrite (Hs i Hlt). cbn [opt_res mbind res_bind].
      assert (Hstop : (if decide (S i < length (fa_starts f)) then opt_res (fa_starts f !! S i)
         else Ok (length (fa_data f))) = Ok (length pre + length (concat (take i a)) + length l)).
      { destruct (decide _) as [Hd1|Hd1].
        - rewrite Hs by lia. simpl. f_equal. rewrite (take_S_r _ _ l) by done. rewrite concat_app, app_length. simpl. rewrite app_nil_r. lia.
        - f_equal. rewrite Hd, app_length. rewrite Hsplit at 1. rewrite concat_app, app_length. simpl. rewrite app_length.
          rewrite drop_ge by lia. simpl. lia. }
      rewrite Hstop. cbn [mbind res_bind]. rewrite bool_decide_true by lia. simpl. do 2 f_equal. lia. }
    eexists. split; [exact Hin|]. intros j. unfold fa_get. rewrite Hin. cbn [mbind res_bind].
    destruct (l !! j) as [x|] eqn:Ej.
    + rewrite bool_decide_true by (by apply lookup_lt_Some in Ej). cbn [assert_ mbind res_bind].
      assert (fa_data f !! (length pre + length (concat (take i a)) + j) = Some x) as ->; [|done].
      rewrite Hd, lookup_app_r by lia.
      replace (length pre + length (concat (take i a)) + j - length pre) with (length (concat (take i a)) + j) by lia.
      rewrite Hcat, lookup_app_r by lia.
      replace (length (concat (take i a)) + j - length (concat (take i a))) with j by lia. simpl.
      rewrite lookup_app_l; [done|]. by apply lookup_lt_Some in Ej.
    + rewrite bool_decide_false; [done|]. apply lookup_ge_None in Ej. lia.
  - intros i j Hi. assert (fa_inner f i = AssertFail) as E.
    { unfold fa_inner. rewrite bool_decide_false by lia. done. }
    split; [done|]. unfold fa_get. by rewrite E.
Qed.

Example C41_case :
  foldl fspec [] [FArray; FPush 1; FPush 2; FArray; FArray; FPush 3] = [[1; 2]; []; [3]].
Proof. reflexivity. Qed.
(** A value pushed before the first array is in no array. *)
Example C41_orphan : foldl fspec [] [FPush 9; FArray; FPush 1] = [[1]].
Proof. reflexivity. Qed.
Print Assumptions C41_flat_nested_array.

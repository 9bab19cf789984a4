(** Invariant of the free list and its preservation. *)
From Verif Require Import Outcome Chain FreeListModel.

Section proofs.
Context {T : Type} (dflt : T).
Implicit Types l : free_list T.

Definition fl_nx l : nat → option (option nat) := λ i, snd <$> fl_elem l !! i.

(** [live] is the set of indices handed out and not removed. *)
Record fl_ok l (live : gset nat) : Prop := {
  flo_chain : ∃ fc, chain (fl_nx l) (fl_free l) fc ∧ NoDup fc ∧
                    (∀ i, i ∈ fc ↔ i < length (fl_elem l) ∧ i ∉ live);
  flo_range : ∀ i, i ∈ live → i < length (fl_elem l);
  flo_size : fl_size l = Z.of_nat (size live)
}.

(** Free slots hold a default constructed value (broken by [clear]). *)
Definition fl_clean l (live : gset nat) : Prop :=
  ∀ i e, fl_elem l !! i = Some e → i ∉ live → e.1 = dflt.

Lemma fl_empty_ok : fl_ok fl_empty ∅.
Proof.
  split; simpl; [|set_solver|done].
  exists []. simpl. split_and!; [done|constructor|].
  intros i. split; [set_solver|]. intros [? _]. lia.
Qed.
Lemma fl_empty_clean : fl_clean fl_empty ∅.
Proof. intros i e He. simpl in He. rewrite lookup_nil in He. done. Qed.

Lemma fresh_slots_length base n : length (fresh_slots dflt base n) = n.
Proof. unfold fresh_slots. rewrite imap_length, replicate_length. done. Qed.

Lemma fresh_slots_lookup base n k :
  k < n → fresh_slots dflt base n !! k =
          Some (dflt, if decide (S k = n) then None else Some (S (base + k))).
Proof.
  intros Hk. unfold fresh_slots. rewrite list_lookup_imap.
  rewrite lookup_replicate_2 by done. done.
Qed.

Lemma chain_seq nx base n :
  (∀ k, k < n → nx (base + k) = Some (if decide (S k = n) then None else Some (S (base + k)))) →
  0 < n → chain nx (Some base) (seq base n).
Proof.
  revert base. induction n as [|n IH]; intros base Hnx Hn; [lia|]. simpl.
  split; [done|]. specialize (Hnx 0 ltac:(lia)) as H0.
  rewrite Nat.add_0_r in H0. rewrite H0. eexists. split; [done|].
  destruct (decide (1 = S n)) as [E|E].
  - assert (n = 0) as -> by lia. done.
  - apply IH; [|lia]. intros k Hk. specialize (Hnx (S k) ltac:(lia)).
    replace (base + S k) with (S base + k) in Hnx by lia. rewrite Hnx.
    f_equal. repeat case_decide; try lia; done.
Qed.

(** Growing an exhausted list keeps the invariant. *)
Definition fl_grow l : free_list T :=
  FL (fl_elem l ++ fresh_slots dflt (length (fl_elem l)) allocation_size)
     (fl_size l) (Some (length (fl_elem l))).

Lemma fl_grow_ok l live : fl_ok l live → fl_free l = None → fl_ok (fl_grow l) live.
Proof.
  intros [(fc & Hc & Hnd & Hfc) Hr Hs] Hf.
  split; simpl.
  - exists (seq (length (fl_elem l)) allocation_size). split_and!.
    + apply chain_seq; [|unfold allocation_size; lia].
      intros k Hk. unfold fl_nx, fl_grow. simpl.
      rewrite lookup_app_r by lia. rewrite (Nat.add_comm _ k), Nat.add_sub.
      rewrite fresh_slots_lookup by done. simpl. f_equal. case_decide; [done|f_equal; lia].
    + apply NoDup_seq.
    + intros i. rewrite elem_of_seq, app_length, fresh_slots_length.
      rewrite Hf in Hc. destruct fc as [|? ?]; [|by destruct Hc].
      specialize (Hfc i). split.
      * intros ?. split; [lia|]. intros Hl. apply Hr in Hl. lia.
      * intros [? Hn]. destruct (decide (i < length (fl_elem l))) as [Hi|?]; [|lia].
        exfalso. assert (i ∈ ([] : list nat)) by (apply Hfc; done). set_solver.
  - intros i Hi. apply Hr in Hi. rewrite app_length. lia.
  - done.
Qed.

Lemma fl_insert_unfold l v nx :
  fl_insert dflt l v nx =
  (let l := match fl_free l with None => fl_grow l | Some _ => l end in
   match fl_free l with
   | None => AssertFail
   | Some index =>
     match fl_elem l !! index with
     | None => AssertFail
     | Some e =>
       Ok (FL (<[index := (v, nx)]> (fl_elem l)) (fl_size l + 1)%Z e.2, index)
     end
   end).
Proof. unfold fl_insert, fl_grow. destruct (fl_free l) eqn:E; simpl; rewrite ?E; done. Qed.

Lemma fl_grow_lookup l i :
  i < length (fl_elem l) → fl_elem (fl_grow l) !! i = fl_elem l !! i.
Proof. intros. simpl. by rewrite lookup_app_l. Qed.

Lemma fl_grow_clean l live : fl_clean l live → fl_clean (fl_grow l) live.
Proof.
  intros Hcl i e He Hi. simpl in He. apply lookup_app_Some in He as [He|[Hle He]].
  - eauto.
  - assert (i - length (fl_elem l) < allocation_size) as Hlt.
    { apply lookup_lt_Some in He. by rewrite fresh_slots_length in He. }
    rewrite fresh_slots_lookup in He by done. by simplify_eq.
Qed.

(** What [insert] does. *)
Lemma fl_insert_spec l live v nx :
  fl_ok l live →
  ∃ l' i, fl_insert dflt l v nx = Ok (l', i) ∧ i ∉ live ∧
    fl_ok l' ({[i]} ∪ live) ∧
    fl_elem l' !! i = Some (v, nx) ∧
    (∀ j, j ≠ i → j < length (fl_elem l) → fl_elem l' !! j = fl_elem l !! j) ∧
    length (fl_elem l) ≤ length (fl_elem l') ∧
    (fl_clean l live → fl_clean l' ({[i]} ∪ live)).
Proof.
  intros Hok. rewrite fl_insert_unfold.
  assert (∃ l1, fl_ok l1 live ∧
    (match fl_free l with None => fl_grow l | Some _ => l end) = l1 ∧
    is_Some (fl_free l1) ∧ length (fl_elem l) ≤ length (fl_elem l1) ∧
    (∀ j, j < length (fl_elem l) → fl_elem l1 !! j = fl_elem l !! j) ∧
    (fl_clean l live → fl_clean l1 live))
    as (l1 & Hok1 & -> & Hsome & Hlen & Hsame & Hclean).
  { destruct (fl_free l) eqn:Hf.
    - exists l. rewrite Hf. split_and!; eauto.
    - exists (fl_grow l). split_and!.
      + by apply fl_grow_ok.
      + done.
      + eexists; done.
      + simpl. rewrite app_length. lia.
      + apply fl_grow_lookup.
      + apply fl_grow_clean. }
  destruct Hok1 as [(fc & Hc & Hnd & Hfc) Hr Hs]. cbn zeta.
  destruct Hsome as [i Hi]. rewrite Hi.
  destruct fc as [|x fc]; [simpl in Hc; congruence|].
  destruct Hc as (Hx & n & Hn & Hc). rewrite Hi in Hx. simplify_eq.
  destruct (Hfc x) as [Hx _]. destruct Hx as [Hxl Hxn]; [set_solver|].
  destruct (lookup_lt_is_Some_2 (fl_elem l1) x Hxl) as [e He].
  rewrite He. eexists _, x. split; [done|]. split; [done|].
  assert (e.2 = n) as Hen. { unfold fl_nx in Hn. rewrite He in Hn. simpl in Hn. congruence. }
  apply NoDup_cons in Hnd as [Hxfc Hnd].
  split_and!.
  - split; simpl.
    + exists fc. split_and!; [|done|].
      * rewrite Hen. eapply chain_ext; [|exact Hc]. intros j Hj. unfold fl_nx. simpl.
        rewrite list_lookup_insert_ne; [done|]. intros ->. done.
      * intros j. rewrite insert_length. specialize (Hfc j).
        rewrite elem_of_cons in Hfc. rewrite elem_of_union, elem_of_singleton.
        split.
        -- intros Hj. split; [tauto|]. intros [->|?]; tauto.
        -- intros [? Hj]. destruct Hfc as [_ Hfc]. destruct Hfc as [->|?]; [tauto|tauto|done].
    + intros j. rewrite insert_length. rewrite elem_of_union, elem_of_singleton.
      intros [->|?]; [done|auto].
    + rewrite size_union, size_singleton by set_solver. lia.
  - simpl. by apply list_lookup_insert.
  - intros j Hj Hjl. simpl. rewrite list_lookup_insert_ne by done. auto.
  - simpl. rewrite insert_length. done.
  - intros Hcl j e' He' Hj. simpl in He'. destruct (decide (j = x)) as [->|Hne]; [set_solver|].
    rewrite list_lookup_insert_ne in He' by done. eapply (Hclean Hcl); eauto. set_solver.
Qed.

(** What [remove] of a live index does. *)
Lemma fl_remove_spec l live i :
  fl_ok l live → i ∈ live →
  ∃ l', fl_remove dflt l i = Ok l' ∧ fl_ok l' (live ∖ {[i]}) ∧
    (∀ j, j ≠ i → fl_elem l' !! j = fl_elem l !! j) ∧
    length (fl_elem l') = length (fl_elem l) ∧
    (fl_clean l live → fl_clean l' (live ∖ {[i]})).
Proof.
  intros [(fc & Hc & Hnd & Hfc) Hr Hs] Hi. unfold fl_remove.
  rewrite decide_True by auto. eexists. split; [done|].
  assert (Hil := Hr _ Hi).
  assert (i ∉ fc) as Hifc. { rewrite Hfc. tauto. }
  split_and!.
  - split; simpl.
    + exists (i :: fc). split_and!.
      * eapply chain_push; [exact Hc| |].
        -- intros j Hj. unfold fl_nx. simpl. rewrite list_lookup_insert_ne; [done|]. by intros ->.
        -- unfold fl_nx. simpl. rewrite list_lookup_insert by done. done.
      * by constructor.
      * intros j. rewrite insert_length, elem_of_cons, Hfc.
        rewrite elem_of_difference, elem_of_singleton.
        destruct (decide (j = i)) as [->|]; naive_solver.
    + intros j Hj. rewrite insert_length. set_solver.
    + rewrite size_difference, size_singleton by set_solver.
      assert (size live ≠ 0). { rewrite size_non_empty_iff. set_solver. } lia.
  - intros j Hj. simpl. by rewrite list_lookup_insert_ne.
  - simpl. by rewrite insert_length.
  - intros Hcl j e He Hj. simpl in He. destruct (decide (j = i)) as [->|Hne].
    + rewrite list_lookup_insert in He by done. by simplify_eq.
    + rewrite list_lookup_insert_ne in He by done. eapply Hcl; eauto. set_solver.
Qed.

(** Overwriting a live slot. *)
Lemma fl_set_spec l live i e :
  fl_ok l live → i ∈ live →
  ∃ l', fl_set l (Some i) e = Ok l' ∧ fl_ok l' live ∧
    fl_elem l' = <[i := e]> (fl_elem l) ∧ (fl_clean l live → fl_clean l' live).
Proof.
  intros [(fc & Hc & Hnd & Hfc) Hr Hs] Hi. unfold fl_set.
  assert (Hil := Hr _ Hi). rewrite decide_True by done. eexists. split; [done|].
  split_and!; [|done|].
  - split; simpl.
    + exists fc. split_and!; [|done|].
      * eapply chain_ext; [|exact Hc]. intros j Hj. unfold fl_nx. simpl.
        rewrite list_lookup_insert_ne; [done|]. intros ->. apply Hfc in Hj. tauto.
      * intros j. by rewrite insert_length, Hfc.
    + intros j. rewrite insert_length. auto.
    + done.
  - intros Hcl j e' He Hj. simpl in He.
    rewrite list_lookup_insert_ne in He by set_solver. eauto.
Qed.

Lemma fl_get_live l live i :
  fl_ok l live → i ∈ live → ∃ e, fl_elem l !! i = Some e ∧ fl_get l (Some i) = Ok e.
Proof.
  intros [_ Hr _] Hi. destruct (lookup_lt_is_Some_2 (fl_elem l) i (Hr _ Hi)) as [e He].
  exists e. split; [done|]. simpl. by rewrite He.
Qed.

(** [clear] gives back a list with nothing live, but slots are not reset. *)
Lemma fl_clear_ok l : fl_ok (fl_clear l) ∅.
Proof.
  unfold fl_clear. destruct (fl_elem l) as [|e0 el] eqn:E.
  { apply fl_empty_ok. }
  rewrite <- E. split; simpl.
  - exists (seq 0 (length (fl_elem l))). split_and!.
    + apply chain_seq; [|rewrite E; simpl; lia]. intros k Hk. simpl.
      unfold fl_nx. simpl. rewrite list_lookup_imap.
      destruct (lookup_lt_is_Some_2 (fl_elem l) k Hk) as [e He]. rewrite He. simpl. done.
    + apply NoDup_seq.
    + intros i. rewrite elem_of_seq, imap_length. set_solver by lia.
  - set_solver.
  - done.
Qed.

Lemma fl_clear_payload l i :
  fst <$> fl_elem (fl_clear l) !! i = fst <$> fl_elem l !! i.
Proof.
  unfold fl_clear. destruct (fl_elem l) as [|e0 el] eqn:E; [done|].
  rewrite <- E. simpl. rewrite list_lookup_imap. by destruct (fl_elem l !! i).
Qed.
End proofs.

(** C22, C23: replication of registries and storage of recorded operations. *)
From Verif Require Import Outcome MapModel MapProofs RegModel RegSpec RegProofs RegMirror RegMore.

(** C22. Start from any source, any destination and any entity map. After any
    history of creating, changing, observing and unobserving entities at the
    source, executing what was recorded succeeds; the destination then mirrors
    the source, everything that was in the destination before is untouched,
    exactly the observed entities were added, and only replicated components
    were given to them. *)
Theorem replication_mirrors merge empty_ty shared s0 src0 d0 m0 acts s :
  dwf d0 m0 →
  ss_obs s0 = ∅ → (∀ e l, em_map m0 !! e = Some l → e ∈ ss_seen s0) →
  rg_alive src0 = ss_alive s0 → rg_next src0 = ss_next s0 →
  (∀ t e, rg_comp src0 !! (t, e) = ss_comp s0 t e) →
  (∀ t e v, ss_comp s0 t e = Some v → empty_ty t = true → v = []) →
  srun shared empty_ty s0 acts s →
  ∃ y d m, rrun (sys_step merge empty_ty shared) (Sys src0 ∅ [] d0 m0) acts = Ok y ∧
    exec_ops merge empty_ty (y_dst y, y_map y) (y_ops y) = Ok (d, m) ∧
    mirrors shared (λ t, empty_ty t = true ∨ ∀ c n, merge t c n = n) s (em_map m)
      (λ l, l ∈ rg_alive d) (λ t l, rg_comp d !! (t, l)) ∧
    (∀ l, l ∈ rg_alive d0 → ∀ t, rg_comp d !! (t, l) = rg_comp d0 !! (t, l)) ∧
    (∀ l, l ∈ rg_alive d ↔ l ∈ rg_alive d0 ∨ ∃ e, e ∈ ss_obs s ∧ em_map m !! e = Some l) ∧
    (∀ t l v, rg_comp d !! (t, l) = Some v → l ∉ rg_alive d0 → t ∈ shared) ∧
    (∀ e l, em_map m0 !! e = Some l → em_map m !! e = Some l) ∧
    dwf d m.
Proof.
  intros W Ho Hk Ea En Ec Ee R.
  destruct (yrun_sim merge empty_ty shared d0 m0 W acts s0 s (Sys src0 ∅ [] d0 m0) R) as (y & E & Y).
  { constructor; cbn; [done..|by rewrite Ho|done|]. exists d0, m0. split; [done|].
    constructor; try done; try (rewrite Ho; set_solver).
    intros t l v H. left. by eapply dw_comp. }
  destruct (yi_dst _ _ _ _ _ _ _ Y) as (d & m & Ex & I). exists y, d, m. split_and!; [done|done|split|..].
  - intros e He. destruct (ri_ent _ _ _ _ _ _ _ _ I e He) as (l & Hl & Ha & _ & M).
    exists l. split_and!; [done..|]. exact M.
  - intros e e' l H1 H2. pose proof (ri_wf _ _ _ _ _ _ _ _ I) as W'. apply (dw_bij _ _ W') in H1, H2. congruence.
  - intros l H t. by apply (ri_frame _ _ _ _ _ _ _ _ I).
  - intros l. split; [by eapply ri_alive|]. intros [H|(e & He & Hl)].
    + by apply (ri_frame _ _ _ _ _ _ _ _ I).
    + destruct (ri_ent _ _ _ _ _ _ _ _ I e He) as (l' & Hl' & Ha & _). congruence.
  - intros t l v H Hn. by destruct (ri_types _ _ _ _ _ _ _ _ I t l v H).
  - intros e l H. by apply (ri_init _ _ _ _ _ _ _ _ I).
  - apply I.
Qed.
Print Assumptions replication_mirrors.

(** The same, read off the destination itself right after a delivery. *)
Theorem replication_mirrors_after_flush merge empty_ty shared s0 src0 acts s :
  ss_obs s0 = ∅ →
  rg_alive src0 = ss_alive s0 → rg_next src0 = ss_next s0 →
  (∀ t e, rg_comp src0 !! (t, e) = ss_comp s0 t e) →
  (∀ t e v, ss_comp s0 t e = Some v → empty_ty t = true → v = []) →
  srun shared empty_ty s0 (acts ++ [AFlush]) s →
  ∃ y, rrun (sys_step merge empty_ty shared) (Sys src0 ∅ [] rg_empty em_empty) (acts ++ [AFlush]) = Ok y ∧
    mirrors shared (λ t, empty_ty t = true ∨ ∀ c n, merge t c n = n) s (em_map (y_map y))
      (λ l, l ∈ rg_alive (y_dst y)) (λ t l, rg_comp (y_dst y) !! (t, l)) ∧
    (∀ l, l ∈ rg_alive (y_dst y) ↔ ∃ e, e ∈ ss_obs s ∧ em_map (y_map y) !! e = Some l).
Proof.
  intros Ho Ea En Ec Ee R.
  assert (W : dwf rg_empty em_empty) by (constructor; cbn; set_solver).
  destruct (replication_mirrors merge empty_ty shared s0 src0 rg_empty em_empty (acts ++ [AFlush]) s W Ho)
    as (y & d & m & E & Ex & M & _ & A & _); [done..|].
  exists y. split; [done|]. assert (y_ops y = []) as Hn.
  { clear -E. revert E. generalize (Sys src0 ∅ [] rg_empty em_empty). induction acts as [|a acts IH]; intros y0; cbn [app rrun].
    - cbn [sys_step]. intros E. apply bind_ok in E as (y1 & E1 & [= <-]).
      apply bind_ok in E1 as ([d m] & _ & [= <-]). done.
    - intros E. apply bind_ok in E as (y1 & _ & E). by eapply IH. }
  rewrite Hn in Ex. cbn in Ex. injection Ex as <- <-. split; [done|]. intros l. rewrite A. cbn. set_solver.
Qed.
Print Assumptions replication_mirrors_after_flush.

(** Executing any recorded list (other than mapping replies) never fails. *)
Theorem execution_never_fails merge empty_ty ops d m :
  dwf d m → Forall not_map ops → ∃ d' m', exec_ops merge empty_ty (d, m) ops = Ok (d', m') ∧ dwf d' m'.
Proof. exact (λ W F, exec_ok merge empty_ty ops d m W F). Qed.
Print Assumptions execution_never_fails.

(** A create operation repeated while the entity exists changes nothing. *)
Theorem repeated_create_is_harmless merge empty_ty s e ops1 ops2 ops3 :
  ODestroy e ∉ ops2 →
  exec_ops merge empty_ty s (ops1 ++ OCreate e :: ops2 ++ OCreate e :: ops3) =
  exec_ops merge empty_ty s (ops1 ++ OCreate e :: ops2 ++ ops3).
Proof. exact (exec_create_twice merge empty_ty s e ops1 ops2 ops3). Qed.
Print Assumptions repeated_create_is_harmless.

(** Destination entities that are not the counterpart of a named entity keep
    existing with all their components. *)
Theorem execution_leaves_others merge empty_ty ops d m d' m' l :
  dwf d m → Forall not_map ops → l ∈ rg_alive d → exec_ops merge empty_ty (d, m) ops = Ok (d', m') →
  (∀ o e, o ∈ ops → names o e → em_map m !! e ≠ Some l) →
  l ∈ rg_alive d' ∧ ∀ t, rg_comp d' !! (t, l) = rg_comp d !! (t, l).
Proof. exact (exec_frame merge empty_ty ops d m d' m' l). Qed.
Print Assumptions execution_leaves_others.

(** Translating a list of component operations first and executing it without
    an entity map gives the same registry. *)
Theorem remap_then_execute merge empty_ty ops d m :
  (∀ o, o ∈ ops → ∃ e v, comp_op o = Some (e, v) ∧ is_Some (em_map m !! e) ∧ val_ok (refd d m) v) →
  ∃ ops', remap_ops m ops = Ok ops' ∧
    exec_ops merge empty_ty (d, m) ops = (d' ← exec_local merge empty_ty d ops'; Ok (d', m)).
Proof. exact (remap_exec merge empty_ty ops d m). Qed.
Print Assumptions remap_then_execute.

(** Mapping replies record exactly the pairs whose entity still exists. *)
Theorem mapping_replies merge empty_ty ps r m :
  (∀ e l, em_map m !! e = Some l ↔ em_local m !! l = Some e) →
  NoDup ps.*1 → NoDup ps.*2 →
  (∀ p, p ∈ ps → em_map m !! p.1 = None ∧ em_local m !! p.2 = None) →
  ∃ m', exec_ops merge empty_ty (r, m) ((λ p, OMapEntity p.1 p.2) <$> ps) = Ok (r, m') ∧
    ∀ e l, em_map m' !! e = Some l ↔ em_map m !! e = Some l ∨ ((e, l) ∈ ps ∧ l ∈ rg_alive r).
Proof. exact (exec_mappings merge empty_ty ps r m). Qed.
Print Assumptions mapping_replies.

(** ** A concrete history: a body (type 1) with data, a constraint (type 2)
    referring to two bodies, changed after the first delivery. *)
Definition set_merge (t : nat) (c n : list mem) : list mem := n.
Definition no_empty (t : nat) : bool := bool_decide (t = 0).
Definition ex_acts : list act :=
  [ACreate; ACreate; ACreate; AEmplace 1 0 [MRaw 5]; AObserve 0; AObserve 1; AFlush;
   AObserve 2; AEmplace 2 2 [MArr [Some 0; Some 1]]; APatch 1 0 [MRaw 6]; AEmplace 1 1 [MRaw 7];
   ARemove 1 1; AFlush].
Definition ex_s0 : sstate := SState ∅ 0 (λ _ _, None) ∅ ∅.
Ltac nxt := eapply srun_cons; [constructor; cbn|cbn].
Example replication_case :
  ∃ s y, srun [1; 2] no_empty ex_s0 ex_acts s ∧
    rrun (sys_step set_merge no_empty [1; 2]) (Sys rg_empty ∅ [] (Reg {[0]} 1 ∅) em_empty) ex_acts = Ok y ∧
    em_map (y_map y) !! 0 = Some 1 ∧ em_map (y_map y) !! 2 = Some 3 ∧
    rg_comp (y_dst y) !! (1, 1) = Some [MRaw 6] ∧
    rg_comp (y_dst y) !! (2, 3) = Some [MArr [Some 1; Some 2]] ∧ rg_comp (y_dst y) !! (1, 2) = None.
Proof.
  eexists _, _. split.
  - do 3 nxt. nxt; [set_solver|done|split; [done|set_solver]|].
    nxt; [set_solver|set_solver| |].
    { intros t v _. unfold upd. case_decide; [|done]. intros [= <-]. repeat constructor. }
    nxt; [set_solver|set_solver| |].
    { intros t v _. unfold upd. case_decide; [|done]. intuition congruence. }
    nxt. nxt; [set_solver|set_solver| |].
    { intros t v _. unfold upd. case_decide; [|done]. intuition congruence. }
    nxt; [set_solver|done| |].
    { split; [done|]. intros _ _. constructor; [|constructor].
      exists [0; 1], 0. split; [done|]. cbn. repeat constructor; set_solver. }
    nxt; [by eexists| |]. { split; [done|]. intros _ _. repeat constructor. }
    nxt; [set_solver|done| |]. { split; [done|]. intros _ _. repeat constructor. }
    nxt. nxt. constructor.
  - split; [vm_compute; reflexivity|]. split_and!; vm_compute; reflexivity.
Qed.

(** ** Where replication is not faithful *)
(** A reference to an entity that is replicated only later arrives as null. *)
Theorem forward_reference_refuted :
  ∃ acts y, rrun (sys_step set_merge no_empty [2]) (Sys rg_empty ∅ [] rg_empty em_empty) acts = Ok y ∧
    rg_comp (y_src y) !! (2, 0) = Some [MEnt (Some 1)] ∧
    is_Some (em_map (y_map y) !! 1) ∧
    ∃ l, em_map (y_map y) !! 0 = Some l ∧ rg_comp (y_dst y) !! (2, l) = Some [MEnt None].
Proof.
  exists [ACreate; ACreate; AEmplace 2 0 [MEnt (Some 1)]; AObserve 0; AObserve 1; AFlush].
  eexists. split; [vm_compute; reflexivity|]. split_and!; [vm_compute; reflexivity|by eexists|].
  eexists. split; vm_compute; reflexivity.
Qed.
Print Assumptions forward_reference_refuted.
(** A null before an entity in a fixed array: the entity arrives twice. *)
Theorem array_with_null_refuted :
  ∃ acts y, rrun (sys_step set_merge no_empty [2]) (Sys rg_empty ∅ [] rg_empty em_empty) acts = Ok y ∧
    rg_comp (y_src y) !! (2, 0) = Some [MArr [None; Some 1]] ∧
    em_map (y_map y) !! 1 = Some 0 ∧
    ∃ l, em_map (y_map y) !! 0 = Some l ∧ rg_comp (y_dst y) !! (2, l) = Some [MArr [Some 0; Some 0]].
Proof.
  exists [ACreate; ACreate; AObserve 1; AEmplace 2 0 [MArr [None; Some 1]]; AObserve 0; AFlush].
  eexists. split; [vm_compute; reflexivity|]. split_and!; [vm_compute; reflexivity..|].
  eexists. split; vm_compute; reflexivity.
Qed.
Print Assumptions array_with_null_refuted.
(** A type with an accumulating merge (as [action_list]) is not mirrored. *)
Theorem accumulating_type_refuted :
  ∃ merge acts y, rrun (sys_step merge no_empty [2]) (Sys rg_empty ∅ [] rg_empty em_empty) acts = Ok y ∧
    rg_comp (y_src y) !! (2, 0) = Some [MRaw 2] ∧
    ∃ l, em_map (y_map y) !! 0 = Some l ∧ rg_comp (y_dst y) !! (2, l) = Some [MRaw 1; MRaw 2].
Proof.
  exists (λ _ c n, c ++ n), [ACreate; AObserve 0; AEmplace 2 0 [MRaw 1]; APatch 2 0 [MRaw 2]; AFlush].
  eexists. split; [vm_compute; reflexivity|]. split_and!; [vm_compute; reflexivity|].
  eexists. split; vm_compute; reflexivity.
Qed.
Print Assumptions accumulating_type_refuted.

(** ** C23 *)
(** Whatever the sizes: each operation gets storage inside one block, no two
    share a byte, and sizes are as requested. *)
Theorem operation_storage sizes :
  Forall (λ n, n ≤ max_block) sizes →
  ∃ s, rrun make_op st_new sizes = Ok s ∧ (st_ops s).*2 = sizes ∧
    (∀ i b off sz, st_ops s !! i = Some (b, off, sz) → ∃ blk, st_blocks s !! b = Some blk ∧ off + sz ≤ blk) ∧
    (∀ i j b off sz off' sz', i ≠ j → st_ops s !! i = Some (b, off, sz) → st_ops s !! j = Some (b, off', sz') →
       off + sz ≤ off' ∨ off' + sz' ≤ off).
Proof.
  intros F. destruct (make_ops sizes st_new st_new_inv F) as (s & E & I & Q). exists s. split_and!; [done|done|apply I|].
  intros i j b off sz off' sz' Hne H1 H2. destruct (decide (i < j)).
  - left. by eapply so_disj.
  - right. eapply so_disj; [exact I| |exact H2|exact H1]. lia.
Qed.
Print Assumptions operation_storage.
Example operation_storage_case :
  ∃ s, rrun make_op st_new [100; 24; 24; 300; max_block; 8] = Ok s ∧ length (st_blocks s) = 4 ∧
    st_ops s = [(0, 0, 100); (0, 100, 24); (1, 0, 24); (1, 24, 300); (2, 0, max_block); (3, 0, 8)].
Proof. eexists. split; vm_compute; [reflexivity|]. split; reflexivity. Qed.
(** An alignment shared by all sizes is kept by all offsets. *)
Theorem operation_alignment a sizes s :
  Forall (λ n, (a | n)) sizes → rrun make_op st_new sizes = Ok s →
  ∀ i b off sz, st_ops s !! i = Some (b, off, sz) → (a | off).
Proof.
  intros F E i b off sz H.
  assert (al_inv a s) as [_ A]. { eapply make_ops_al; [|exact F|exact E]. split; [apply Nat.divide_0_r|constructor]. }
  by apply (Forall_lookup_1 _ _ _ _ A) in H.
Qed.
Print Assumptions operation_alignment.
(** An operation with a stricter alignment than another one can be misplaced. *)
Theorem mixed_alignment_refuted :
  ∃ sizes s i b off sz, rrun make_op st_new sizes = Ok s ∧ st_ops s !! i = Some (b, off, sz) ∧
    (16 | sz) ∧ ¬ (16 | off).
Proof.
  exists [24; 32]. eexists _, 1, 0, 24, 32. split_and!; [vm_compute; reflexivity..| |].
  - exists 2. reflexivity.
  - intros [k Hk]. lia.
Qed.
Print Assumptions mixed_alignment_refuted.
(** Recording after finish() without having taken the result reuses storage
    that is still in use. *)
Theorem unused_finish_refuted :
  ∃ s s' i j b off sz off' sz', rrun make_op st_new [64] = Ok s ∧
    make_op (Store (st_blocks s) 0 (st_ops s)) 64 = Ok s' ∧
    i ≠ j ∧ st_ops s' !! i = Some (b, off, sz) ∧ st_ops s' !! j = Some (b, off', sz') ∧
    off < off' + sz' ∧ off' < off + sz.
Proof.
  eexists _, _, 0, 1, 0, 0, 64, 0, 64. split_and!; try (vm_compute; reflexivity); lia.
Qed.
Print Assumptions unused_finish_refuted.

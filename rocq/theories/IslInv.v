(** Invariants of the island manager. *)
From Coq Require Import ZArith.
From Verif Require Import Outcome IslModel IslSpec IslBase.

Lemma linked_sym s x y : linked s x y → linked s y x.
Proof. intros [k [H|H]]; exists k; auto. Qed.
Lemma linked_ends s x y : linked s x y ↔ ∃ k, (sg_edges s !! k = Some (x, y) ∨ sg_edges s !! k = Some (y, x)).
Proof. done. Qed.
Lemma ends_edge s k x : ends s k x → is_edge s k.
Proof. intros [y [H|H]]; by eexists. Qed.
Lemma ends_two s k x y : ends s k x → ends s k y → x = y ∨ linked s x y.
Proof. intros [a [Ha|Ha]] [b [Hb|Hb]]; rewrite Ha in Hb; simplify_eq; try (by left); right; exists k; auto. Qed.
Lemma linked_edge s x y : linked s x y → ∃ k, ends s k x ∧ ends s k y.
Proof. intros [k [H|H]]; exists k; split; eexists; eauto. Qed.
Lemma procedural_node s x : procedural s x → is_Some (sg_nodes s !! x).
Proof. unfold procedural. intros ->. eauto. Qed.
Lemma node_kind s x : is_Some (sg_nodes s !! x) → procedural s x ∨ anchored s x.
Proof. intros [[] H]; auto. Qed.
Lemma kind_excl s x : procedural s x → anchored s x → False.
Proof. unfold procedural, anchored. congruence. Qed.
Global Instance procedural_dec s x : Decision (procedural s x).
Proof. unfold procedural. apply _. Defined.
Global Instance anchored_dec s x : Decision (anchored s x).
Proof. unfold anchored. apply _. Defined.

(** Edges join live bodies. *)
Definition wf (s : sgraph) : Prop := ∀ k x, ends s k x → is_Some (sg_nodes s !! x).

(** ** Residents and members agree *)
Record part (s : sgraph) (res : gmap nat (option nat)) (mem emem : nat → nat → Prop) : Prop := {
  pt_res : ∀ x, is_Some (res !! x) ↔ procedural s x ∨ is_edge s x;
  pt_node : ∀ x h, procedural s x → (res !! x = Some (Some h) ↔ mem h x);
  pt_edge : ∀ k h, is_edge s k → (res !! k = Some (Some h) ↔ emem h k);
  pt_nlive : ∀ h x, mem h x → is_Some (sg_nodes s !! x);
  pt_elive : ∀ h k, emem h k → is_edge s k;
  pt_ends : ∀ k h x, ends s k x → res !! k = Some (Some h) → mem h x;
  pt_has : ∀ k h, is_edge s k → res !! k = Some (Some h) → ∃ x, ends s k x ∧ procedural s x
}.

(** No body and edge share an entity *)
Definition sep (s : sgraph) : Prop := ∀ x, is_Some (sg_nodes s !! x) → is_edge s x → False.

Section absorb.
Context (s : sgraph) (res : gmap nat (option nat)) (mem emem : nat → nat → Prop).
Context (P : part s res mem emem) (HS : sep s) (HW : wf s).
Context (X : nat → Prop) (cn ce is : list nat) (h : nat).
Record gathered : Prop := {
  ga_X : ∀ x, X x → procedural s x;
  ga_cn : ∀ y, y ∈ cn ↔ (X y ∧ res !! y = Some None) ∨ (anchored s y ∧ ∃ x, X x ∧ linked s x y);
  ga_ce : ∀ k, k ∈ ce ↔ res !! k = Some None ∧ ∃ x, X x ∧ ends s k x;
  ga_in : ∀ x y J, X x → (x = y ∨ linked s x y) → procedural s y → res !! y = Some (Some J) → J ∈ is;
  ga_closed : ∀ x y, X x → linked s x y → procedural s y → res !! y = Some None → X y
}.
Context (G : gathered) (Hh : h ∈ is ∨ (is = [] ∧ ∀ y, ¬ mem h y ∧ ¬ emem h y)).
Context (res' : gmap nat (option nat)) (mem' emem' : nat → nat → Prop).
Definition moved (y : nat) : Prop := (procedural s y ∧ y ∈ cn) ∨ y ∈ ce ∨ ∃ J, J ∈ is ∧ res !! y = Some (Some J).
Context (Hres1 : ∀ y, moved y → res' !! y = Some (Some h)) (Hres2 : ∀ y, ¬ moved y → res' !! y = res !! y).
Context (Hmem : ∀ J y, mem' J y ↔ (J = h ∧ (y ∈ cn ∨ ∃ K, K ∈ is ∧ mem K y)) ∨ (J ≠ h ∧ J ∉ is ∧ mem J y)).
Context (Hemem : ∀ J y, emem' J y ↔ (J = h ∧ (y ∈ ce ∨ ∃ K, K ∈ is ∧ emem K y)) ∨ (J ≠ h ∧ J ∉ is ∧ emem J y)).

Lemma moved_dec y : moved y ∨ ¬ moved y.
Proof.
  destruct (decide ((procedural s y ∧ y ∈ cn) ∨ y ∈ ce)) as [H|H].
  { left. unfold moved. tauto. }
  destruct (res !! y) as [[J|]|] eqn:E; [destruct (decide (J ∈ is))| |].
  - left. right. right. eauto.
  - right. intros [?|[?|(K & HK & E')]]; [tauto|tauto|]. congruence.
  - right. intros [?|[?|(K & HK & E')]]; [tauto|tauto|]. congruence.
  - right. intros [?|[?|(K & HK & E')]]; [tauto|tauto|]. congruence.
Qed.

Lemma mem_h_in y : mem h y → h ∈ is.
Proof. destruct Hh as [H|[_ H]]; [done|]. intros Hm. by destruct (H y). Qed.
Lemma emem_h_in y : emem h y → h ∈ is.
Proof. destruct Hh as [H|[_ H]]; [done|]. intros Hm. by destruct (H y). Qed.

Lemma absorb_part : part s res' mem' emem'.
Proof using All.
  assert (Hcn : ∀ y, procedural s y → y ∈ cn → res !! y = Some None).
  { intros y Hy Hin. apply (ga_cn G) in Hin as [[_ ?]|[Ha _]]; [done|]. by destruct (kind_excl s y). }
  split.
  - intros x. rewrite <- (pt_res _ _ _ _ P). destruct (moved_dec x) as [M|M]; [|by rewrite Hres2].
    rewrite Hres1 by done. split; [|by eauto]. intros _.
    destruct M as [[? M]|[M|(J & _ & M)]].
    + rewrite Hcn by done. eauto.
    + apply (ga_ce G) in M as [-> _]. eauto.
    + rewrite M. eauto.
  - intros x J Hx. rewrite Hmem. destruct (moved_dec x) as [M|M].
    + rewrite Hres1 by done. split.
      * intros [= <-]. left. split; [done|]. destruct M as [[_ ?]|[M|(K & HK & M)]]; [by left| |].
        -- apply (ga_ce G) in M as (_ & z & _ & M). exfalso.
           apply (HS x); [by apply procedural_node|by eapply ends_edge].
        -- right. exists K. split; [done|]. by apply (pt_node _ _ _ _ P).
      * intros [[-> _]|(Hn & Hni & Hm)]; [done|]. exfalso.
        apply (pt_node _ _ _ _ P) in Hm; [|done]. destruct M as [[_ M]|[M|(K & HK & M)]].
        -- rewrite Hcn in Hm by done. done.
        -- apply (ga_ce G) in M as [M _]. congruence.
        -- rewrite M in Hm. by simplify_eq.
    + rewrite Hres2 by done. split.
      * intros Hr. right. split; [|split].
        -- intros ->. apply M. right. right. exists h. split; [|done].
           by apply (mem_h_in x), (pt_node _ _ _ _ P).
        -- intros Hin. apply M. right. right. eauto.
        -- by apply (pt_node _ _ _ _ P).
      * intros [(-> & [Hin|(K & HK & Hm)])|(_ & _ & Hm)].
        -- exfalso. apply M. left. done.
        -- exfalso. apply M. right. right. exists K. split; [done|]. by apply (pt_node _ _ _ _ P).
        -- by apply (pt_node _ _ _ _ P).
  - intros x J Hx. rewrite Hemem. destruct (moved_dec x) as [M|M].
    + rewrite Hres1 by done. split.
      * intros [= <-]. left. split; [done|]. destruct M as [[M _]|[M|(K & HK & M)]]; [|by left|].
        -- exfalso. apply (HS x); [by apply procedural_node|done].
        -- right. exists K. split; [done|]. by apply (pt_edge _ _ _ _ P).
      * intros [[-> _]|(Hn & Hni & Hm)]; [done|]. exfalso.
        apply (pt_edge _ _ _ _ P) in Hm; [|done]. destruct M as [[M _]|[M|(K & HK & M)]].
        -- apply (HS x); [by apply procedural_node|done].
        -- apply (ga_ce G) in M as [M _]. congruence.
        -- rewrite M in Hm. by simplify_eq.
    + rewrite Hres2 by done. split.
      * intros Hr. right. split; [|split].
        -- intros ->. apply M. right. right. exists h. split; [|done].
           by apply (emem_h_in x), (pt_edge _ _ _ _ P).
        -- intros Hin. apply M. right. right. eauto.
        -- by apply (pt_edge _ _ _ _ P).
      * intros [(-> & [Hin|(K & HK & Hm)])|(_ & _ & Hm)].
        -- exfalso. apply M. right. by left.
        -- exfalso. apply M. right. right. exists K. split; [done|]. by apply (pt_edge _ _ _ _ P).
        -- by apply (pt_edge _ _ _ _ P).
  - intros J x. rewrite Hmem. intros [(-> & [Hin|(K & HK & Hm)])|(_ & _ & Hm)].
    + apply (ga_cn G) in Hin as [[Hin _]|[Hin _]]; [|by eexists]. by apply procedural_node, (ga_X G).
    + by eapply (pt_nlive _ _ _ _ P).
    + by eapply (pt_nlive _ _ _ _ P).
  - intros J x. rewrite Hemem. intros [(-> & [Hin|(K & HK & Hm)])|(_ & _ & Hm)].
    + apply (ga_ce G) in Hin as (_ & z & _ & Hz). by eapply ends_edge.
    + by eapply (pt_elive _ _ _ _ P).
    + by eapply (pt_elive _ _ _ _ P).
  - intros k J x Hx Hr. apply Hmem. destruct (moved_dec k) as [M|M].
    + rewrite Hres1 in Hr by done. injection Hr as <-. left. split; [done|].
      destruct M as [[M _]|[M|(K & HK & M)]].
      * exfalso. apply (HS k); [by apply procedural_node|by eapply ends_edge].
      * apply (ga_ce G) in M as (_ & z & Hz & Hkz).
        destruct (node_kind s x (HW k x Hx)) as [Hp|Ha].
        -- assert (Hzx : z = x ∨ linked s z x) by (by eapply ends_two).
           assert (is_Some (res !! x)) as [[J|] E] by (apply (pt_res _ _ _ _ P); auto).
           ++ right. exists J. split; [by eapply (ga_in G)|]. by apply (pt_node _ _ _ _ P).
           ++ left. apply (ga_cn G). left. split; [|done]. destruct Hzx as [->|Hzx]; [done|]. by eapply (ga_closed G).
        -- left. apply (ga_cn G). right. split; [done|]. exists z. split; [done|].
           destruct (ends_two s k z x Hkz Hx) as [->|?]; [|done].
           exfalso. apply (kind_excl s x); [by apply (ga_X G)|done].
      * right. exists K. split; [done|]. by eapply (pt_ends _ _ _ _ P).
    + rewrite Hres2 in Hr by done. assert (Hm : mem J x) by (by eapply (pt_ends _ _ _ _ P)).
      right. split_and!; [| |done].
      * intros ->. apply M. right. right. exists h. split; [by apply (mem_h_in x)|done].
      * intros Hin. apply M. right. right. eauto.
  - intros k J Hk Hr. destruct (moved_dec k) as [M|M].
    + destruct M as [[M _]|[M|(K & HK & M)]].
      * exfalso. apply (HS k); [by apply procedural_node|done].
      * apply (ga_ce G) in M as (_ & z & Hz & Hkz). exists z. split; [done|]. by apply (ga_X G).
      * by eapply (pt_has _ _ _ _ P).
    + rewrite Hres2 in Hr by done. by eapply (pt_has _ _ _ _ P).
Qed.
End absorb.

(** ** The rest of the state *)
Record store (s : sgraph) (w : world) : Prop := {
  st_nd : ∀ h il, w_isl w !! h = Some il → NoDup (il_nodes il) ∧ NoDup (il_edges il);
  st_multi : ∀ x, is_Some (w_multi w !! x) ↔ anchored s x;
  st_mnd : ∀ x is, w_multi w !! x = Some is → NoDup is ∧ ∀ h, h ∈ is → h < w_next w;
  st_mem : ∀ h x is, member w h x → w_multi w !! x = Some is → h ∈ is;
  st_valid : ∀ x, x ∈ w_valid w ↔ is_Some (sg_nodes s !! x) ∨ is_edge s x ∨ is_island w x;
  st_node : ∀ x, is_Some (sg_nodes s !! x) → x < w_next w ∧ ¬ is_edge s x ∧ ¬ is_island w x;
  st_edge : ∀ x, is_edge s x → x < w_next w ∧ ¬ is_island w x;
  st_isl : ∀ x, is_island w x → x < w_next w;
  st_lists : ∀ x, x ∈ w_split w ++ w_wake w → x < w_next w ∧ ¬ is_Some (sg_nodes s !! x) ∧ ¬ is_edge s x;
  st_proc : ∀ x, x ∈ w_proc w ↔ procedural s x
}.
(** The queues of new bodies and edges hold what has no island. *)
Record queue (s : sgraph) (w : world) : Prop := {
  q_n : ∀ x, x ∈ w_newn w → x < w_next w ∧ ¬ is_edge s x ∧ ¬ is_island w x ∧ (procedural s x → w_res w !! x = Some None);
  q_e : ∀ x, x ∈ w_newe w → x < w_next w ∧ ¬ is_Some (sg_nodes s !! x) ∧ ¬ is_island w x ∧ (is_edge s x → w_res w !! x = Some None);
  q_null : ∀ x, procedural s x → w_res w !! x = Some None → x ∈ w_newn w;
  q_enull : ∀ k x, ends s k x → procedural s x → w_res w !! k = Some None → k ∈ w_newe w
}.
(** Sleeping islands and their residents *)
Record slp (w : world) : Prop := {
  sl_up : ∀ x, x ∈ w_asleep w → is_island w x ∨ ∃ h, in_island w x h ∧ h ∈ w_asleep w;
  sl_down : ∀ x h, in_island w x h → h ∈ w_asleep w → x ∈ w_asleep w
}.

(** Making bodies and edges keeps the invariant. *)
From Coq Require Import ZArith.
From Verif Require Import Outcome FreeListModel FreeListProofs GraphModel GraphSpec GraphProofs GraphHist GraphWalk GraphMain
  IslModel IslSpec IslBase IslInv IslData IslRel IslReach IslInit IslSplit IslOne IslUpd IslOps.

(** case analysis on a decision in the goal *)
Ltac gdec_ H := match goal with |- context [@decide ?P ?d] => destruct (@decide P d) as [H|H] end.
Tactic Notation "gdec" ident(H) := gdec_ H.

Lemma core_fresh s w : core s w →
  sg_nodes s !! w_next w = None ∧ sg_edges s !! w_next w = None ∧ w_isl w !! w_next w = None ∧ w_res w !! w_next w = None ∧
  w_multi w !! w_next w = None ∧ w_next w ∉ w_asleep w.
Proof.
  intros C. pose proof (co_store _ _ C) as S'. pose proof (co_part _ _ C) as P.
  assert (Hn : sg_nodes s !! w_next w = None).
  { apply eq_None_not_Some. intros H. apply (st_node _ _ S') in H as [H _]. lia. }
  assert (He : sg_edges s !! w_next w = None).
  { apply eq_None_not_Some. intros H. apply (st_edge _ _ S') in H as [H _]. lia. }
  assert (Hi : w_isl w !! w_next w = None).
  { apply eq_None_not_Some. intros H. apply (st_isl _ _ S') in H. lia. }
  assert (Hr : w_res w !! w_next w = None).
  { apply eq_None_not_Some. intros [H|[v H]]%(pt_res _ _ _ _ P); [unfold procedural in H|]; congruence. }
  split_and!; try done.
  - apply eq_None_not_Some. intros H%(st_multi _ _ S'). unfold anchored in H. congruence.
  - intros [[v H]|(h & H & _)]%(sl_up _ (co_slp _ _ C)); [congruence|]. unfold in_island in H. congruence.
Qed.
Lemma rel_fresh s m w : core s w → rel s m w → w_node w !! w_next w = None ∧ w_edge w !! w_next w = None.
Proof.
  intros C R. destruct (core_fresh s w C) as (Hn & He & _). split; apply eq_None_not_Some; intros [i Hi].
  - apply (rel_node_live _ _ _ R) in Hi as [v Hv]. congruence.
  - apply (rel_edge_live _ _ _ R) in Hi as [v Hv]. congruence.
Qed.

Record new_post (s s' : sgraph) (w w' : world) : Prop := {
  np_core : core s' w';
  np_rel : ∃ m', rel s' m' w';
  np_settled : ∀ J, settled s w J → settled s' w' J;
  np_split : w_split w' = w_split w;
  np_kept : kept w w'
}.
Lemma kept_same w w' : w_last w' = w_last w → w_isl w' = w_isl w → w_asleep w' = w_asleep w →
  (∀ y h, in_island w' y h → in_island w y h) → w_wake w' = w_wake w → kept w w'.
Proof. intros H1 H2 H3 H4 H5. split; [done|rewrite H2; eauto|by rewrite H3|done|by rewrite H5]. Qed.

Lemma new_node_ok s m w p ns : core s w → rel s m w →
  ∃ w', new_node w p ns = Ok (w', w_next w) ∧ new_post s (snext s (NewNode p ns) (w_next w)) w w' ∧
    (no_null_edge s w → no_null_edge (snext s (NewNode p ns) (w_next w)) w').
Proof.
  intros C R. pose proof (co_store _ _ C) as S'. pose proof (co_part _ _ C) as P. pose proof (co_queue _ _ C) as Q. pose proof (co_slp _ _ C) as L.
  destruct (core_fresh s w C) as (Fn & Fe & Fi & Fr & Fm & Fa). destruct (rel_fresh s m w C R) as [Fw Fwe].
  unfold new_node, create. cbv beta iota zeta. cbn [snext]. set (x := w_next w) in *.
  change (w_graph (set_valid (set_next w (S x)) ({[x]} ∪ w_valid w))) with (w_graph w).
  destruct (graph_step s m w (MInsertNode x (negb p)) R) as (g & r & Hg & (i & -> & Hi) & Hh); [done..|].
  cbn [gstep] in Hg. destruct (insert_node (w_graph w) (Some x) (negb p)) as [[g' i']| | |] eqn:Ei; try done. cbn [mbind res_bind] in Hg. injection Hg as -> ->.
  cbn [mbind res_bind]. eexists. split; [done|]. match goal with |- new_post _ _ _ ?W ∧ _ => set (w' := W) end.
  set (s' := SG _ _).
  assert (Er : ∀ q, w_res w' !! q = if decide (q = x ∧ p = true) then Some None else w_res w !! q).
  { intros y. assert (w_res w' = if p then <[x := None]> (w_res w) else w_res w) as -> by (by destruct p, ns).
    clear -Fr. destruct p; gdec Hy.
    - destruct Hy as [-> _]. by rewrite lookup_insert.
    - rewrite lookup_insert_ne; [done|]. intros <-. tauto.
    - by destruct Hy.
    - done. }
  assert (Em : ∀ q, w_multi w' !! q = if decide (q = x ∧ p = false) then Some [] else w_multi w !! q).
  { intros y. assert (w_multi w' = if p then w_multi w else <[x := []]> (w_multi w)) as -> by (by destruct p, ns).
    clear -Fm. destruct p; gdec Hy.
    - by destruct Hy.
    - done.
    - destruct Hy as [-> _]. by rewrite lookup_insert.
    - rewrite lookup_insert_ne; [done|]. intros <-. tauto. }
  assert (Eg : w_graph w' = g) by (by destruct p, ns).
  assert (En : w_node w' = <[x := i]> (w_node w)) by (by destruct p, ns).
  assert (Ee : w_edge w' = w_edge w) by (by destruct p, ns).
  assert (Ev : w_valid w' = {[x]} ∪ w_valid w) by (by destruct p, ns).
  assert (Ep : ∀ y, y ∈ w_proc w' ↔ (y = x ∧ p = true) ∨ y ∈ w_proc w).
  { intros y. assert (w_proc w' = if p then {[x]} ∪ w_proc w else w_proc w) as -> by (by destruct p, ns).
    destruct p; [rewrite elem_of_union, elem_of_singleton; tauto|]. split; [tauto|]. by intros [[_ ?]|?]. }
  assert (Eq : w_newn w' = w_newn w ++ [x] ∧ w_newe w' = w_newe w ∧ w_split w' = w_split w ∧ w_wake w' = w_wake w ∧ w_next w' = S x) by (by destruct p, ns).
  destruct Eq as (Eq1 & Eq2 & Eq3 & Eq4 & Eq5).
  assert (Ei1 : w_isl w' = w_isl w) by (by destruct p, ns).
  assert (Ea : w_asleep w' = w_asleep w) by (by destruct p, ns).
  assert (El : w_last w' = w_last w) by (by destruct p, ns).
  clearbody w'. clear Ei.
  assert (Sp : ∀ y, procedural s' y ↔ (y = x ∧ p = true) ∨ procedural s y).
  { intros y. unfold procedural. cbn. rewrite lookup_insert_Some. split.
    - intros [[<- ->]|[_ ?]]; auto.
    - intros [[-> ->]|Hy]; [by left|]. right. split; [|done]. intros <-. congruence. }
  assert (Sa : ∀ y, anchored s' y ↔ (y = x ∧ p = false) ∨ anchored s y).
  { intros y. unfold anchored. cbn. rewrite lookup_insert_Some. split.
    - intros [[<- ->]|[_ ?]]; auto.
    - intros [[-> ->]|Hy]; [by left|]. right. split; [|done]. intros <-. congruence. }
  assert (Sn : ∀ y, is_Some (sg_nodes s' !! y) ↔ y = x ∨ is_Some (sg_nodes s !! y)).
  { intros y. cbn. rewrite lookup_insert_is_Some'. split; intros [?|?]; auto. }
  assert (Se : ∀ k, is_edge s' k ↔ is_edge s k) by done.
  assert (Sd : ∀ k y, ends s' k y ↔ ends s k y) by done.
  assert (Mm : ∀ h y, member w' h y ↔ member w h y) by (intros h y; unfold member; by rewrite Ei1).
  assert (Me : ∀ h y, emember w' h y ↔ emember w h y) by (intros h y; unfold emember; by rewrite Ei1).
  assert (Is : ∀ h, is_island w' h ↔ is_island w h) by (intros h; unfold is_island; by rewrite Ei1).
  assert (Rh : ∀ y h, w_res w' !! y = Some (Some h) ↔ w_res w !! y = Some (Some h)).
  { intros y h. rewrite Er. gdec Hy; [|done]. destruct Hy as [-> _]. by rewrite Fr. }
  assert (Rk : ∀ k, is_edge s k → w_res w' !! k = w_res w !! k).
  { intros k [v Hk]. rewrite Er, decide_False; [done|]. intros [-> _]. congruence. }
  assert (Nx : ∀ y, y = x → is_Some (sg_nodes s !! y) → False) by (intros y -> [? ?]; congruence).
  assert (Nxe : ∀ y, y = x → is_edge s y → False) by (intros y -> [? ?]; congruence).
  assert (Nxi : ∀ y, y = x → is_island w y → False) by (intros y -> [? ?]; congruence).
  split.
  - split.
    + split.
      * split.
        -- intros y. rewrite Er, Sp, Se. gdec Hy; [split; [tauto|by eauto]|]. rewrite (pt_res _ _ _ _ P). tauto.
        -- intros y h. rewrite Sp, Rh, Mm. intros [[-> _]|Hy]; [|by apply (pt_node _ _ _ _ P)].
           rewrite Fr. split; [done|]. intros Hm%(pt_nlive _ _ _ _ P). destruct (Nx x); done.
        -- intros y h Hy. rewrite Rh, Me. by apply (pt_edge _ _ _ _ P).
        -- intros h y. rewrite Mm, Sn. intros H%(pt_nlive _ _ _ _ P). by right.
        -- intros h y. rewrite Me. apply (pt_elive _ _ _ _ P).
        -- intros k h y Hy. rewrite Rh, Mm. by apply (pt_ends _ _ _ _ P).
        -- intros k h Hk. rewrite Rh. intros H. destruct (pt_has _ _ _ _ P k h Hk H) as (z & ? & ?). exists z. rewrite Sp. auto.
      * split.
        -- rewrite Ei1. apply S'.
        -- intros y. rewrite Em, Sa, <- (st_multi _ _ S'). gdec Hy; [split; [tauto|by eauto]|tauto].
        -- intros y is. rewrite Em, Eq5. gdec Hy.
           ++ intros [= <-]. split; [constructor|]. intros h. by rewrite elem_none.
           ++ intros H. destruct (st_mnd _ _ S' y is H) as [? Hlt]. split; [done|]. intros h Hh'. specialize (Hlt h Hh'). fold x in Hlt. lia.
        -- intros h y is. rewrite Mm, Em. gdec Hy; [|apply S'].
           destruct Hy as [-> _]. intros Hm%(pt_nlive _ _ _ _ P). destruct (Nx x); done.
        -- intros y. rewrite Ev, elem_of_union, elem_of_singleton, (st_valid _ _ S'), Sn, Is. unfold is_edge. cbn. tauto.
        -- intros y. rewrite Sn, Eq5, Is. intros [->|Hy].
           ++ split_and!; [lia|by intros ?%Nxe|by intros ?%Nxi].
           ++ destruct (st_node _ _ S' y Hy) as (Hlt & ? & ?). fold x in Hlt. split_and!; [lia|done..].
        -- intros y Hy. rewrite Eq5, Is. destruct (st_edge _ _ S' y Hy) as (Hlt & ?). fold x in Hlt. split; [lia|done].
        -- intros y. rewrite Is, Eq5. intros Hlt%(st_isl _ _ S'). fold x in Hlt. lia.
        -- intros y. rewrite Eq3, Eq4, Eq5, Sn. intros Hy. destruct (st_lists _ _ S' y Hy) as (Hlt & H1 & H2). fold x in Hlt. split_and!; [lia| |done].
           intros [->|?]; [lia|done].
        -- intros y. rewrite Ep, Sp, (st_proc _ _ S'). done.
      * split; rewrite Ea.
        -- intros y Hy. destruct (sl_up _ L y Hy) as [Hy'|(h & Hh' & Hs)]; [left; by apply Is|right; exists h; split; [by apply Rh|done]].
        -- intros y h Hy. apply (sl_down _ L y h). by apply Rh.
      * rewrite Eq3. apply C.
      * split; rewrite ?Eq1, ?Eq2, ?Eq5.
        -- intros y [Hy| ->]%elem_snoc; rewrite Is.
           ++ destruct (q_n _ _ Q y Hy) as (Hlt & H1 & H2 & H3). fold x in Hlt. split_and!; [lia|done|done|]. rewrite Sp, Er.
              intros Hp. gdec Hd; [done|]. destruct Hp as [?|Hp]; [done|]. by apply H3.
           ++ split_and!; [lia|by intros ?%Nxe|by intros ?%Nxi|]. rewrite Sp, Er. intros Hp. gdec Hd; [done|].
              destruct Hp as [?|Hp]; [done|]. unfold procedural in Hp. congruence.
        -- intros y Hy. rewrite Is, Sn. destruct (q_e _ _ Q y Hy) as (Hlt & H1 & H2 & H3). fold x in Hlt. split_and!; [lia| |done|].
           ++ intros [->|?]; [lia|done].
           ++ intros Hk. rewrite Rk by done. by apply H3.
        -- intros y. rewrite Sp, Er, elem_snoc. intros [[-> _]|Hy]; [tauto|]. gdec Hd; [tauto|]. intros H. left. by apply (q_null _ _ Q).
        -- intros k y Hk. rewrite Rk by (by eapply ends_edge). rewrite Sp. intros [[-> _]|Hy]; [|by apply (q_enull _ _ Q k y)].
           apply (co_wf _ _ C) in Hk. by apply Nx in Hk.
      * intros k y Hk. rewrite Sn. right. by eapply (co_wf _ _ C).
    + eexists. split.
      * rewrite Eg. exact Hh.
      * intros y j. rewrite En. cbn. rewrite lookup_insert_Some. split.
        -- intros [[<- <-]|[Hne Hy]]; [exists (negb p); by rewrite lookup_insert|]. apply (rl_node _ _ _ R) in Hy as [b Hb].
           exists b. rewrite lookup_insert_ne; [done|]. congruence.
        -- intros [b [[<- [= <- _]]|[Hne Hb]]%lookup_insert_Some]; [by left|]. right. split.
           ++ intros <-. apply (rl_kind _ _ _ R) in Hb. congruence.
           ++ apply (rl_node _ _ _ R). eauto.
      * intros j y b. cbn. rewrite !lookup_insert_Some. intros [[<- [= <- <-]]|[Hne Hb]]; [left; by rewrite negb_involutive|].
        apply (rl_kind _ _ _ R) in Hb. right. split; [|done]. intros <-. congruence.
      * intros y. rewrite Sn, En, lookup_insert_is_Some'. intros [->|Hy]; [by left|right; by apply (rl_live _ _ _ R)].
      * rewrite Ee. apply R.
      * intros e k a b Hk. destruct (rl_ends _ _ _ R _ _ _ _ Hk) as (u & v & Hu & Hv & Hw). exists u, v. rewrite En.
        rewrite !lookup_insert_ne by congruence. done.
      * rewrite Ee. apply R.
      * intros y. rewrite Ep, Sp, (rl_proc _ _ _ R). done.
    + intros J HJ y z. rewrite !Mm, !Sp. intros Hy Hz Hpy Hpz.
      assert (∀ u, member w J u → (u = x ∧ p = true) ∨ procedural s u → procedural s u) as Hpp.
      { intros u Hu [[-> _]|?]; [|done]. apply (pt_nlive _ _ _ _ P) in Hu. by apply Nx in Hu. }
      specialize (HJ y z Hy Hz (Hpp _ Hy Hpy) (Hpp _ Hz Hpz)). clear Hpy Hpz.
      induction HJ as [|u v k Hu IH Hk Hn Hv]; [constructor; apply Sp; by right|].
      assert (is_edge s k) by (destruct Hk as [Hk|Hk]; by eexists).
      destruct (Rk k) as []; [done|].
      assert (oconn s' w' y u).
      { clear -Hu Sp Rk. induction Hu as [|u v k Hu IH Hk Hn Hv]; [constructor; apply Sp; by right|].
        eapply oc_step; [done|exact Hk| |apply Sp; by right]. unfold null. rewrite Rk; [done|]. destruct Hk as [Hk|Hk]; by eexists. }
      eapply oc_step; [done|exact Hk| |apply Sp; by right]. unfold null. by rewrite Rk.
    + done.
    + apply kept_same; try done. intros y h. by apply Rh.
  - intros H k y Hk. rewrite Sp. unfold null. rewrite Rk by (by eapply ends_edge). intros [[-> _]|Hy]; [|by eapply H].
    apply (co_wf _ _ C) in Hk. by apply Nx in Hk.
Qed.

Lemma new_edge_ok s m w a b : core s w → rel s m w → is_Some (sg_nodes s !! a) → is_Some (sg_nodes s !! b) → a ≠ b →
  ∃ w', new_edge w a b = Ok (w', w_next w) ∧ new_post s (snext s (NewEdge a b) (w_next w)) w w'.
Proof.
  intros C R Ha Hb Hab. pose proof (co_store _ _ C) as S'. pose proof (co_part _ _ C) as P. pose proof (co_queue _ _ C) as Q. pose proof (co_slp _ _ C) as L.
  destruct (core_fresh s w C) as (Fn & Fe & Fi & Fr & Fm & Fa). destruct (rel_fresh s m w C R) as [Fw Fwe].
  unfold new_edge, create. cbv beta iota zeta. cbn [snext]. set (x := w_next w) in *.
  change (w_graph (set_valid (set_next w (S x)) ({[x]} ∪ w_valid w))) with (w_graph w).
  change (w_node (set_valid (set_next w (S x)) ({[x]} ∪ w_valid w))) with (w_node w).
  destruct (rl_live _ _ _ R a Ha) as [i Hi]. destruct (rl_live _ _ _ R b Hb) as [j Hj]. rewrite Hi, Hj. cbn [opt_res mbind res_bind].
  destruct (graph_step s m w (MInsertEdge x i j) R) as (g & r & Hg & (e & -> & He) & Hh); [|done|].
  { split_and!; [apply (rel_live _ _ _ R); eauto..|]. intros ->. exfalso. apply Hab. by eapply (rel_node_inj _ _ _ R). }
  cbn [gstep] in Hg. destruct (insert_edge (w_graph w) (Some x) i j) as [[g' e']| | |]; try done. cbn [mbind res_bind] in Hg. injection Hg as -> ->.
  cbn [mbind res_bind]. eexists. split; [done|]. match goal with |- new_post _ _ _ ?W => set (w' := W) end.
  set (s' := SG _ _).
  assert (Er : ∀ q, w_res w' !! q = if decide (q = x) then Some None else w_res w !! q).
  { intros y. cbn. gdec Hy; [subst y; by rewrite lookup_insert|by rewrite lookup_insert_ne]. }
  assert (Se : ∀ k, is_edge s' k ↔ k = x ∨ is_edge s k).
  { intros y. unfold is_edge. cbn. rewrite lookup_insert_is_Some'. split; intros [?|?]; auto. }
  assert (Sl : ∀ k u v, sg_edges s !! k = Some (u, v) → sg_edges s' !! k = Some (u, v)).
  { intros k u v Hk. cbn. rewrite lookup_insert_ne; [done|]. congruence. }
  assert (Sd : ∀ k y, ends s' k y ↔ (k = x ∧ (y = a ∨ y = b)) ∨ ends s k y).
  { intros k y. unfold ends. cbn. split.
    - intros [z [[[<- [= <- <-]]|[_ Hz]]%lookup_insert_Some|[[<- [= <- <-]]|[_ Hz]]%lookup_insert_Some]]; eauto 10.
    - intros [[-> [->| ->]]|[z Hz]]; [exists b|exists a|exists z; rewrite lookup_insert_ne; [done|intros <-; rewrite Fe in Hz; by destruct Hz]];
      rewrite lookup_insert; auto. }
  assert (Sn : sg_nodes s' = sg_nodes s) by done.
  assert (Mm : ∀ h y, member w' h y ↔ member w h y) by done.
  assert (Me : ∀ h y, emember w' h y ↔ emember w h y) by done.
  assert (Is : ∀ h, is_island w' h ↔ is_island w h) by done.
  assert (Rh : ∀ y h, w_res w' !! y = Some (Some h) ↔ w_res w !! y = Some (Some h)).
  { intros y h. rewrite Er. gdec Hy; [|done]. subst y. by rewrite Fr. }
  assert (Rk : ∀ k, k ≠ x → w_res w' !! k = w_res w !! k).
  { intros k Hk. by rewrite Er, decide_False. }
  assert (Nx : ∀ y, y = x → is_Some (sg_nodes s !! y) → False) by (intros y -> [? ?]; congruence).
  assert (Nxe : ∀ y, y = x → is_edge s y → False) by (intros y -> [? ?]; congruence).
  assert (Nxi : ∀ y, y = x → is_island w y → False) by (intros y -> [? ?]; congruence).
  split.
  - split.
    + split.
      * intros y. rewrite Er, Se. change (procedural s' y) with (procedural s y). gdec Hy; [split; [tauto|by eauto]|]. rewrite (pt_res _ _ _ _ P). tauto.
      * intros y h Hy. rewrite Rh, Mm. by apply (pt_node _ _ _ _ P).
      * intros y h. rewrite Se, Rh, Me. intros [->|Hy]; [|by apply (pt_edge _ _ _ _ P)].
        rewrite Fr. split; [done|]. intros Hm%(pt_elive _ _ _ _ P). destruct (Nxe x); done.
      * intros h y. apply (pt_nlive _ _ _ _ P).
      * intros h y. rewrite Me, Se. intros H%(pt_elive _ _ _ _ P). by right.
      * intros k h y. rewrite Sd, Rh, Mm. intros [[-> _]|Hy]; [by rewrite Fr|]. by apply (pt_ends _ _ _ _ P).
      * intros k h. rewrite Se, Rh. intros [->|Hk] H; [by rewrite Fr in H|]. destruct (pt_has _ _ _ _ P k h Hk H) as (z & ? & ?). exists z. rewrite Sd. auto.
    + split.
      * apply S'.
      * apply S'.
      * intros y is H. destruct (st_mnd _ _ S' y is H) as [? Hlt]. split; [done|]. intros h Hh'. specialize (Hlt h Hh'). cbn. fold x in Hlt |- *. lia.
      * intros h y is. apply (st_mem _ _ S' h y is).
      * intros y. rewrite Se, Sn, Is. change (w_valid w') with ({[x]} ∪ w_valid w). rewrite elem_of_union, elem_of_singleton, (st_valid _ _ S'). tauto.
      * intros y. rewrite Sn, Is, Se. cbn. fold x. intros Hy. destruct (st_node _ _ S' y Hy) as (Hlt & ? & ?). fold x in Hlt. split_and!; [lia| |done].
        intros [->|?]; [lia|done].
      * intros y. rewrite Se, Is. cbn. fold x. intros [->|Hy]; [split; [lia|by intros ?%Nxi]|].
        destruct (st_edge _ _ S' y Hy) as (Hlt & ?). fold x in Hlt. split; [lia|done].
      * intros y. rewrite Is. cbn. fold x. intros Hlt%(st_isl _ _ S'). fold x in Hlt. lia.
      * intros y Hy. rewrite Se. cbn. fold x. destruct (st_lists _ _ S' y Hy) as (Hlt & H1 & H2). fold x in Hlt. split_and!; [lia|done|].
        intros [->|?]; [lia|done].
      * apply S'.
    + split.
      * intros y Hy. destruct (sl_up _ L y Hy) as [Hy'|(h & Hh' & Hs)]; [by left|right; exists h; split; [by apply Rh|done]].
      * intros y h Hy. apply (sl_down _ L y h). by apply Rh.
    + apply C.
    + split.
      * intros y Hy. cbn [w_next w' set_res set_new set_edge set_graph set_valid set_next]. fold x.
        destruct (q_n _ _ Q y Hy) as (Hlt & H1 & H2 & H3). fold x in Hlt. rewrite Se. split_and!; [lia|intros [->|?]; [lia|done]|done|].
        intros Hp. rewrite Rk by lia. by apply H3.
      * intros y. change (w_newe w') with (w_newe w ++ [x]). change (w_next w') with (S x). rewrite Sn, Is, Se, elem_snoc. intros [Hy| ->].
        -- destruct (q_e _ _ Q y Hy) as (Hlt & H1 & H2 & H3). fold x in Hlt. split_and!; [lia|done|done|]. intros [->|Hk]; [lia|]. rewrite Rk by lia. by apply H3.
        -- split_and!; [lia|by intros ?%Nx|by intros ?%Nxi|]. intros _. rewrite Er. by rewrite decide_True.
      * intros y Hy H. apply (q_null _ _ Q y Hy). rewrite <- H. symmetry. apply Rk. intros ->. apply (Nx x); [done|]. by apply procedural_node.
      * intros k y. change (w_newe w') with (w_newe w ++ [x]). rewrite Sd, elem_snoc. intros [[-> _]|Hk] Hy H; [by right|]. left.
        apply (q_enull _ _ Q k y Hk Hy). rewrite <- H. symmetry. apply Rk. intros ->. apply (Nxe x); [done|]. by eapply ends_edge.
    + intros k y. rewrite Sn, Sd. intros [[-> [->| ->]]|Hk]; [done..|]. by eapply (co_wf _ _ C).
  - eexists. split.
    + exact Hh.
    + apply R.
    + apply R.
    + apply R.
    + intros k e'. cbn. rewrite lookup_insert_Some. split.
      * intros [[<- <-]|[Hne Hy]]; [exists i, j; by rewrite lookup_insert|]. apply (rl_edge _ _ _ R) in Hy as (u & v & Hb').
        exists u, v. rewrite lookup_insert_ne; [done|]. congruence.
      * intros (u & v & [[<- [= <- _ _]]|[Hne Hb']]%lookup_insert_Some); [by left|]. right. split.
        -- intros <-. apply (rl_ends _ _ _ R) in Hb' as (? & ? & ? & _). congruence.
        -- apply (rl_edge _ _ _ R). eauto.
    + intros e' k u v. cbn. rewrite lookup_insert_Some. intros [[<- [= <- <- <-]]|[Hne Hb']].
      * exists a, b. by rewrite lookup_insert.
      * destruct (rl_ends _ _ _ R _ _ _ _ Hb') as (a' & b' & Hk & ? & ?). exists a', b'. split; [by apply Sl|done].
    + intros k. rewrite Se. intros Hk. cbn. rewrite lookup_insert_is_Some'. destruct Hk as [->|Hk]; [by left|right; by apply (rl_elive _ _ _ R)].
    + apply R.
  - intros J HJ y z Hy Hz Hpy Hpz. specialize (HJ y z Hy Hz Hpy Hpz). clear Hy Hz Hpy Hpz.
    induction HJ as [|u v k Hu IH Hk Hn Hv]; [by constructor|].
    eapply (oc_step s' w' y u v k); [done|destruct Hk as [Hk|Hk]; apply Sl in Hk; auto| |done]. unfold null. rewrite Rk; [done|].
    intros ->. destruct Hk; congruence.
  - done.
  - apply kept_same; try done. intros y h. by apply Rh.
Qed.

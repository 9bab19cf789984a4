(** The packed solver simulates the reference solver of [RowSpec]. *)
From Verif Require Import Outcome RowModel JointModel RowSpec.

Section sim.
Context {N : num}.
Notation T := (nt N).
Implicit Types (l : owned N) (s : store N) (e : elem N).

Fixpoint frics_at (off : nat) (l : list (elem N)) : list (fric N) :=
  match l with
  | [] => []
  | e :: l => map (set_idx off) (option_list (e_fric e)) ++ frics_at (S off) l
  end.
Fixpoint rolls_at (off : nat) (l : list (elem N)) : list (fric N) :=
  match l with
  | [] => []
  | e :: l => map (set_idx off) (option_list (e_roll e)) ++ rolls_at (S off) l
  end.
Fixpoint spins_at (off : nat) (l : list (elem N)) : list (spin N) :=
  match l with
  | [] => []
  | e :: l => map (set_pidx off) (option_list (e_spin e)) ++ spins_at (S off) l
  end.
Definition flags_of e : flags :=
  Flags (bool_decide (is_Some (e_fric e))) (bool_decide (is_Some (e_roll e)))
        (bool_decide (is_Some (e_spin e))).
Definition packed (l : list (elem N)) (nums : list nat) : cache N :=
  Cache (map e_row l) nums (map flags_of l) (frics_at 0 l) (rolls_at 0 l) (spins_at 0 l).

Lemma frics_at_app off a b : frics_at off (a ++ b) = frics_at off a ++ frics_at (off + length a) b.
Proof.
  revert off. induction a as [|e a IH]; intros off; simpl.
  { by rewrite Nat.add_0_r. }
  rewrite IH, app_assoc. by rewrite Nat.add_succ_r.
Qed.
Lemma rolls_at_app off a b : rolls_at off (a ++ b) = rolls_at off a ++ rolls_at (off + length a) b.
Proof.
  revert off. induction a as [|e a IH]; intros off; simpl.
  { by rewrite Nat.add_0_r. }
  rewrite IH, app_assoc. by rewrite Nat.add_succ_r.
Qed.
Lemma spins_at_app off a b : spins_at off (a ++ b) = spins_at off a ++ spins_at (off + length a) b.
Proof.
  revert off. induction a as [|e a IH]; intros off; simpl.
  { by rewrite Nat.add_0_r. }
  rewrite IH, app_assoc. by rewrite Nat.add_succ_r.
Qed.

Lemma pack_elem_packed (l : list (elem N)) nums e : pack_elem (packed l nums) e = packed (l ++ [e]) nums.
Proof.
  unfold pack_elem, packed. cbn [k_rows k_num k_flags k_fric k_roll k_spin].
  rewrite !map_app, frics_at_app, rolls_at_app, spins_at_app, map_length. simpl.
  by rewrite !app_nil_r.
Qed.
Lemma foldl_packed (l : list (elem N)) nums es : foldl pack_elem (packed l nums) es = packed (l ++ es) nums.
Proof.
  revert l. induction es as [|e es IH]; intros l; simpl; [by rewrite app_nil_r|].
  rewrite pack_elem_packed, IH. by rewrite <- app_assoc.
Qed.

(** ** One pass. *)
Notation els l := (map snd l).

Lemma sweep_keys f l s : map fst (fst (sweep f l s)) = map fst l.
Proof.
  revert s. induction l as [|[key e] l IH]; intros s; simpl; [done|].
  destruct (f e s) as [e' s'] eqn:E. destruct (sweep f l s') as [l' s''] eqn:E'. simpl.
  f_equal. rewrite <- (IH s'). by rewrite E'.
Qed.
Lemma sweep_length f l s : length (fst (sweep f l s)) = length l.
Proof. rewrite <- (map_length fst), sweep_keys. apply map_length. Qed.

(** What a pass leaves alone. *)
Lemma sweep_same {A} (pr : elem N → A) f l s :
  (∀ e s, pr (fst (f e s)) = pr e) →
  map pr (els (fst (sweep f l s))) = map pr (els l).
Proof.
  intros Hf. revert s. induction l as [|[key e] l IH]; intros s; simpl; [done|].
  pose proof (Hf e s) as He.
  destruct (f e s) as [e' s'] eqn:E. destruct (sweep f l s') as [l' s''] eqn:E'. simpl in *.
  rewrite He. f_equal. rewrite <- (IH s'). by rewrite E'.
Qed.

Lemma frics_at_ext off a b : map e_fric a = map e_fric b → frics_at off a = frics_at off b.
Proof.
  revert off b. induction a as [|x a IH]; intros off [|y b]; simpl; intros H; try done.
  injection H as -> H. f_equal. by apply IH.
Qed.
Lemma rolls_at_ext off a b : map e_roll a = map e_roll b → rolls_at off a = rolls_at off b.
Proof.
  revert off b. induction a as [|x a IH]; intros off [|y b]; simpl; intros H; try done.
  injection H as -> H. f_equal. by apply IH.
Qed.
Lemma spins_at_ext off a b : map e_spin a = map e_spin b → spins_at off a = spins_at off b.
Proof.
  revert off b. induction a as [|x a IH]; intros off [|y b]; simpl; intros H; try done.
  injection H as -> H. f_equal. by apply IH.
Qed.

Lemma solve_rows_sim l s :
  solve_rows (map e_row (els l)) s
  = (map e_row (els (fst (sweep step_row l s))), snd (sweep step_row l s)).
Proof.
  revert s. induction l as [|[key e] l IH]; intros s; simpl; [done|].
  unfold step_row at 1 3. destruct (solve_row (e_row e) s) as [r d].
  rewrite IH. destruct (sweep step_row l _) as [l' s'']. done.
Qed.

Lemma friction_with_idx i f n s :
  friction_with (N:=N) (set_idx i f) n s
  = (set_idx i (fst (friction_with f n s)), snd (friction_with f n s)).
Proof.
  unfold friction_with, set_idx. cbn [f_0 f_1 f_mu f_idx].
  destruct (_ <? _); [destruct (_ <? _)|]; done.
Qed.
Lemma spin_with_idx i p n s :
  spin_with (N:=N) (set_pidx i p) n s
  = (set_pidx i (fst (spin_with p n s)), snd (spin_with p n s)).
Proof.
  unfold spin_with, set_pidx. cbn [p_J0 p_J1 p_eff p_rhs p_imp p_mu p_idx].
  destruct (clamp_imp _ _ _ _ _) as [i' d]. done.
Qed.

Definition rows_from (off : nat) (rows : list (row N)) (l : list (elem N)) : Prop :=
  ∀ i e, l !! i = Some e → rows !! (off + i) = Some (e_row e).

Lemma rows_from_cons off rows e (l : list (elem N)) :
  rows_from off rows (e :: l) → rows !! off = Some (e_row e) ∧ rows_from (S off) rows l.
Proof.
  intros H. split.
  - rewrite <- (Nat.add_0_r off). by apply H.
  - intros i e' Hi. rewrite Nat.add_succ_comm. by apply H.
Qed.

Lemma solve_frictions_sim off rows l s :
  rows_from off rows (els l) →
  solve_frictions (frics_at off (els l)) rows s
  = Ok (frics_at off (els (fst (sweep step_fric l s))), snd (sweep step_fric l s)).
Proof.
  revert off s. induction l as [|[key e] l IH]; intros off s Hr; [done|].
  cbn [map snd] in *. apply rows_from_cons in Hr as [H0 Hr]. cbn [sweep].
  destruct (step_fric e s) as [e1 s1] eqn:Es. unfold step_fric in Es.
  cbn [frics_at]. destruct (e_fric e) as [f|] eqn:Ef.
  - destruct (friction_with f (e_row e) s) as [f' s'] eqn:E. injection Es as <- <-.
    change (option_list (Some f)) with [f]. cbn [map app solve_frictions]. unfold solve_friction. cbn [f_idx set_idx].
    rewrite H0. cbn [opt_res mbind res_bind].
    rewrite friction_with_idx, E. cbn [mbind res_bind fst snd].
    rewrite IH by done. cbn [mbind res_bind].
    by destruct (sweep step_fric l s') as [l' s''].
  - injection Es as <- <-. change (option_list None) with (@nil (fric N)). cbn [map app]. rewrite IH by done.
    destruct (sweep step_fric l s) as [l' s'']. cbn [fst snd map frics_at]. by rewrite Ef.
Qed.
Lemma solve_rolls_sim off rows l s :
  rows_from off rows (els l) →
  solve_frictions (rolls_at off (els l)) rows s
  = Ok (rolls_at off (els (fst (sweep step_roll l s))), snd (sweep step_roll l s)).
Proof.
  revert off s. induction l as [|[key e] l IH]; intros off s Hr; [done|].
  cbn [map snd] in *. apply rows_from_cons in Hr as [H0 Hr]. cbn [sweep].
  destruct (step_roll e s) as [e1 s1] eqn:Es. unfold step_roll in Es.
  cbn [rolls_at]. destruct (e_roll e) as [f|] eqn:Ef.
  - destruct (friction_with f (e_row e) s) as [f' s'] eqn:E. injection Es as <- <-.
    change (option_list (Some f)) with [f]. cbn [map app solve_frictions]. unfold solve_friction. cbn [f_idx set_idx].
    rewrite H0. cbn [opt_res mbind res_bind].
    rewrite friction_with_idx, E. cbn [mbind res_bind fst snd].
    rewrite IH by done. cbn [mbind res_bind].
    by destruct (sweep step_roll l s') as [l' s''].
  - injection Es as <- <-. change (option_list None) with (@nil (fric N)). cbn [map app]. rewrite IH by done.
    destruct (sweep step_roll l s) as [l' s'']. cbn [fst snd map rolls_at]. by rewrite Ef.
Qed.
Lemma solve_spins_sim off rows l s :
  rows_from off rows (els l) →
  solve_spins (spins_at off (els l)) rows s
  = Ok (spins_at off (els (fst (sweep step_spin l s))), snd (sweep step_spin l s)).
Proof.
  revert off s. induction l as [|[key e] l IH]; intros off s Hr; [done|].
  cbn [map snd] in *. apply rows_from_cons in Hr as [H0 Hr]. cbn [sweep].
  destruct (step_spin e s) as [e1 s1] eqn:Es. unfold step_spin in Es.
  cbn [spins_at]. destruct (e_spin e) as [f|] eqn:Ef.
  - destruct (spin_with f (e_row e) s) as [f' s'] eqn:E. injection Es as <- <-.
    change (option_list (Some f)) with [f]. cbn [map app solve_spins]. unfold solve_spin. cbn [p_idx set_pidx].
    rewrite H0. cbn [opt_res mbind res_bind].
    rewrite spin_with_idx, E. cbn [mbind res_bind fst snd].
    rewrite IH by done. cbn [mbind res_bind].
    by destruct (sweep step_spin l s') as [l' s''].
  - injection Es as <- <-. change (option_list None) with (@nil (spin N)). cbn [map app]. rewrite IH by done.
    destruct (sweep step_spin l s) as [l' s'']. cbn [fst snd map spins_at]. by rewrite Ef.
Qed.

Lemma rows_from_map l : rows_from 0 (map e_row (els l)) (els l).
Proof. intros i e Hi. simpl. by rewrite list_lookup_fmap, Hi. Qed.

(** Which part of an element each pass changes. *)
Lemma step_row_fric e s : e_fric (fst (step_row e s)) = e_fric e.
Proof. unfold step_row. by destruct (solve_row _ _). Qed.
Lemma step_row_roll e s : e_roll (fst (step_row e s)) = e_roll e.
Proof. unfold step_row. by destruct (solve_row _ _). Qed.
Lemma step_row_spin e s : e_spin (fst (step_row e s)) = e_spin e.
Proof. unfold step_row. by destruct (solve_row _ _). Qed.
Lemma step_fric_row e s : e_row (fst (step_fric e s)) = e_row e.
Proof. unfold step_fric. destruct (e_fric e); [by destruct (friction_with _ _ _)|done]. Qed.
Lemma step_fric_roll e s : e_roll (fst (step_fric e s)) = e_roll e.
Proof. unfold step_fric. destruct (e_fric e); [by destruct (friction_with _ _ _)|done]. Qed.
Lemma step_fric_spin e s : e_spin (fst (step_fric e s)) = e_spin e.
Proof. unfold step_fric. destruct (e_fric e); [by destruct (friction_with _ _ _)|done]. Qed.
Lemma step_roll_row e s : e_row (fst (step_roll e s)) = e_row e.
Proof. unfold step_roll. destruct (e_roll e); [by destruct (friction_with _ _ _)|done]. Qed.
Lemma step_roll_fric e s : e_fric (fst (step_roll e s)) = e_fric e.
Proof. unfold step_roll. destruct (e_roll e); [by destruct (friction_with _ _ _)|done]. Qed.
Lemma step_roll_spin e s : e_spin (fst (step_roll e s)) = e_spin e.
Proof. unfold step_roll. destruct (e_roll e); [by destruct (friction_with _ _ _)|done]. Qed.
Lemma step_spin_row e s : e_row (fst (step_spin e s)) = e_row e.
Proof. unfold step_spin. destruct (e_spin e); [by destruct (spin_with _ _ _)|done]. Qed.
Lemma step_spin_fric e s : e_fric (fst (step_spin e s)) = e_fric e.
Proof. unfold step_spin. destruct (e_spin e); [by destruct (spin_with _ _ _)|done]. Qed.
Lemma step_spin_roll e s : e_roll (fst (step_spin e s)) = e_roll e.
Proof. unfold step_spin. destruct (e_spin e); [by destruct (spin_with _ _ _)|done]. Qed.

Lemma step_row_flags e s : flags_of (fst (step_row e s)) = flags_of e.
Proof. unfold flags_of. by rewrite step_row_fric, step_row_roll, step_row_spin. Qed.
Lemma step_fric_flags e s : flags_of (fst (step_fric e s)) = flags_of e.
Proof.
  unfold flags_of. rewrite step_fric_roll, step_fric_spin. f_equal.
  apply bool_decide_ext. unfold step_fric.
  destruct (e_fric e) eqn:E; [destruct (friction_with _ _ _); simpl; naive_solver|simpl; by rewrite E].
Qed.
Lemma step_roll_flags e s : flags_of (fst (step_roll e s)) = flags_of e.
Proof.
  unfold flags_of. rewrite step_roll_fric, step_roll_spin. f_equal.
  apply bool_decide_ext. unfold step_roll.
  destruct (e_roll e) eqn:E; [destruct (friction_with _ _ _); simpl; naive_solver|simpl; by rewrite E].
Qed.
Lemma step_spin_flags e s : flags_of (fst (step_spin e s)) = flags_of e.
Proof.
  unfold flags_of. rewrite step_spin_fric, step_spin_roll. f_equal.
  apply bool_decide_ext. unfold step_spin.
  destruct (e_spin e) eqn:E; [destruct (spin_with _ _ _); simpl; naive_solver|simpl; by rewrite E].
Qed.

Lemma solve_cache_sim l nums s :
  solve_cache (packed (els l) nums) s
  = Ok (packed (els (fst (own_iteration l s))) nums, snd (own_iteration l s)).
Proof.
  unfold solve_cache, own_iteration, packed. cbn [k_rows k_num k_flags k_fric k_roll k_spin].
  rewrite solve_rows_sim.
  destruct (sweep step_row l s) as [l1 s1] eqn:E1. cbn [fst snd].
  pose proof (sweep_same e_fric step_row l s step_row_fric) as Hf1.
  pose proof (sweep_same e_roll step_row l s step_row_roll) as Hr1.
  pose proof (sweep_same e_spin step_row l s step_row_spin) as Hp1.
  pose proof (sweep_same flags_of step_row l s step_row_flags) as Hg1.
  rewrite E1 in Hf1, Hr1, Hp1, Hg1. cbn [fst] in Hf1, Hr1, Hp1, Hg1.
  rewrite <- (frics_at_ext 0 _ _ Hf1), (solve_frictions_sim 0 _ l1 s1) by apply rows_from_map.
  cbn [mbind res_bind].
  destruct (sweep step_fric l1 s1) as [l2 s2] eqn:E2. cbn [fst snd].
  pose proof (sweep_same e_row step_fric l1 s1 step_fric_row) as Hn2.
  pose proof (sweep_same e_roll step_fric l1 s1 step_fric_roll) as Hr2.
  pose proof (sweep_same e_spin step_fric l1 s1 step_fric_spin) as Hp2.
  pose proof (sweep_same flags_of step_fric l1 s1 step_fric_flags) as Hg2.
  rewrite E2 in Hn2, Hr2, Hp2, Hg2. cbn [fst] in Hn2, Hr2, Hp2, Hg2.
  rewrite <- (rolls_at_ext 0 _ _ Hr1), <- (rolls_at_ext 0 _ _ Hr2), <- Hn2.
  rewrite (solve_rolls_sim 0 _ l2 s2) by apply rows_from_map. cbn [mbind res_bind].
  destruct (sweep step_roll l2 s2) as [l3 s3] eqn:E3. cbn [fst snd].
  pose proof (sweep_same e_row step_roll l2 s2 step_roll_row) as Hn3.
  pose proof (sweep_same e_fric step_roll l2 s2 step_roll_fric) as Hf3.
  pose proof (sweep_same e_spin step_roll l2 s2 step_roll_spin) as Hp3.
  pose proof (sweep_same flags_of step_roll l2 s2 step_roll_flags) as Hg3.
  rewrite E3 in Hn3, Hf3, Hp3, Hg3. cbn [fst] in Hn3, Hf3, Hp3, Hg3.
  rewrite <- (spins_at_ext 0 _ _ Hp1), <- (spins_at_ext 0 _ _ Hp2), <- (spins_at_ext 0 _ _ Hp3), <- Hn3.
  rewrite (solve_spins_sim 0 _ l3 s3) by apply rows_from_map. cbn [mbind res_bind].
  pose proof (sweep_same e_row step_spin l3 s3 step_spin_row) as Hn4.
  pose proof (sweep_same e_fric step_spin l3 s3 step_spin_fric) as Hf4.
  pose proof (sweep_same e_roll step_spin l3 s3 step_spin_roll) as Hr4.
  pose proof (sweep_same flags_of step_spin l3 s3 step_spin_flags) as Hg4.
  rewrite Hn4, Hg4, Hg3, Hg2, Hg1.
  rewrite (frics_at_ext 0 _ _ Hf4), (frics_at_ext 0 _ _ Hf3), (rolls_at_ext 0 _ _ Hr4).
  done.
Qed.

Lemma iterate_cache_sim n l nums s :
  iterate_cache n (packed (els l) nums) s
  = Ok (packed (els (fst (own_iterate n l s))) nums, snd (own_iterate n l s)).
Proof.
  revert l s. induction n as [|n IH]; intros l s; [done|].
  cbn [iterate_cache own_iterate]. rewrite solve_cache_sim. cbn [mbind res_bind].
  destruct (own_iteration l s) as [l' s']. apply IH.
Qed.

(** ** Warm start. *)
Lemma warm_rows_sim l s :
  warm_rows (map e_row (els l)) s = foldl (λ s x, warm_row (e_row (snd x)) s) s l.
Proof. revert s. induction l as [|[key e] l IH]; intros s; simpl; [done|]. apply IH. Qed.
Lemma warm_frictions_sim off rows l s :
  rows_from off rows (els l) →
  warm_frictions (frics_at off (els l)) rows s
  = Ok (foldl (λ s x, from_option (λ f, warm_friction_with f (e_row (snd x)) s) s
                        (e_fric (snd x))) s l).
Proof.
  revert off s. induction l as [|[key e] l IH]; intros off s Hr; simpl; [done|].
  apply rows_from_cons in Hr as [H0 Hr].
  destruct (e_fric e) as [f|] eqn:Ef; simpl; [|by apply IH].
  unfold warm_friction. cbn [f_idx set_idx]. rewrite H0. simpl. by apply IH.
Qed.
Lemma warm_rolls_sim off rows l s :
  rows_from off rows (els l) →
  warm_frictions (rolls_at off (els l)) rows s
  = Ok (foldl (λ s x, from_option (λ f, warm_friction_with f (e_row (snd x)) s) s
                        (e_roll (snd x))) s l).
Proof.
  revert off s. induction l as [|[key e] l IH]; intros off s Hr; simpl; [done|].
  apply rows_from_cons in Hr as [H0 Hr].
  destruct (e_roll e) as [f|] eqn:Ef; simpl; [|by apply IH].
  unfold warm_friction. cbn [f_idx set_idx]. rewrite H0. simpl. by apply IH.
Qed.
Lemma warm_spins_sim off rows l s :
  rows_from off rows (els l) →
  warm_spins (spins_at off (els l)) rows s
  = Ok (foldl (λ s x, from_option (λ p, apply_spin (p_imp p) p (e_row (snd x)) s) s
                        (e_spin (snd x))) s l).
Proof.
  revert off s. induction l as [|[key e] l IH]; intros off s Hr; simpl; [done|].
  apply rows_from_cons in Hr as [H0 Hr].
  destruct (e_spin e) as [f|] eqn:Ef; simpl; [|by apply IH].
  unfold warm_spin. cbn [p_idx set_pidx]. rewrite H0. simpl. by apply IH.
Qed.
Lemma warm_cache_sim l nums s :
  warm_cache (packed (els l) nums) s = Ok (own_warm l s).
Proof.
  unfold warm_cache, packed. cbn [k_rows k_num k_flags k_fric k_roll k_spin].
  rewrite warm_rows_sim, (warm_frictions_sim 0 _ l) by apply rows_from_map.
  cbn [mbind res_bind]. rewrite (warm_rolls_sim 0 _ l) by apply rows_from_map.
  cbn [mbind res_bind]. by rewrite (warm_spins_sim 0 _ l) by apply rows_from_map.
Qed.

(** ** Reading the impulses back. *)
Definition tail_at (u : cursor) (k : cache N) (l : list (elem N)) : Prop :=
  drop (u_row u) (k_rows k) = map e_row l
  ∧ drop (u_row u) (k_flags k) = map flags_of l
  ∧ drop (u_fric u) (k_fric k) = frics_at (u_row u) l
  ∧ drop (u_roll u) (k_roll k) = rolls_at (u_row u) l
  ∧ drop (u_spin u) (k_spin k) = spins_at (u_row u) l.

Lemma drop_lookup {A} (i : nat) (l : list A) x t : drop i l = x :: t → l !! i = Some x ∧ drop (S i) l = t.
Proof.
  intros H. split.
  - rewrite <- (Nat.add_0_r i), <- lookup_drop, H. done.
  - rewrite <- Nat.add_1_r, <- drop_drop, H. done.
Qed.

Lemma gather_sim a b u k :
  tail_at u k (a ++ b) →
  ∃ u', gather (length a) k u = Ok (concat (map elem_values a), u')
    ∧ tail_at u' k b ∧ u_con u' = u_con u.
Proof.
  revert u. induction a as [|e a IH]; intros u Ht.
  { exists u. done. }
  destruct Ht as (H1 & H2 & H3 & H4 & H5). simpl in H1, H2, H3, H4, H5.
  apply drop_lookup in H1 as [L1 H1]. apply drop_lookup in H2 as [L2 H2].
  cbn [length gather]. rewrite L2, L1. cbn [opt_res mbind res_bind].
  cbn [flags_of fl_fric fl_roll fl_spin].
  set (u1 := Cursor (u_con u) (S (u_row u)) (u_fric u) (u_roll u) (u_spin u)).
  assert (∃ uf, (if bool_decide (is_Some (e_fric e)) then
      f ← opt_res (k_fric k !! u_fric u1);
      Ok ([i_imp (f_0 f); i_imp (f_1 f)],
          Cursor (u_con u1) (u_row u1) (S (u_fric u1)) (u_roll u1) (u_spin u1))
      else Ok ([], u1))
      = Ok (from_option fric_values [] (e_fric e),
            Cursor (u_con u) (S (u_row u)) uf (u_roll u) (u_spin u))
      ∧ drop uf (k_fric k) = frics_at (S (u_row u)) (a ++ b)) as (uf & Ef & Hf).
  { destruct (e_fric e) as [f|]; simpl in *.
    - apply drop_lookup in H3 as [L3 H3]. rewrite L3. by exists (S (u_fric u)).
    - by exists (u_fric u). }
  rewrite Ef. cbn [mbind res_bind].
  assert (∃ ur, (if bool_decide (is_Some (e_roll e)) then
      f ← opt_res (k_roll k !! u_roll u);
      Ok ([i_imp (f_0 f); i_imp (f_1 f)],
          Cursor (u_con u) (S (u_row u)) uf (S (u_roll u)) (u_spin u))
      else Ok ([], Cursor (u_con u) (S (u_row u)) uf (u_roll u) (u_spin u)))
      = Ok (from_option fric_values [] (e_roll e),
            Cursor (u_con u) (S (u_row u)) uf ur (u_spin u))
      ∧ drop ur (k_roll k) = rolls_at (S (u_row u)) (a ++ b)) as (ur & Er & Hr).
  { destruct (e_roll e) as [f|]; simpl in *.
    - apply drop_lookup in H4 as [L4 H4]. rewrite L4. by exists (S (u_roll u)).
    - by exists (u_roll u). }
  cbn [u_con u_row u_fric u_roll u_spin]. rewrite Er. cbn [mbind res_bind].
  assert (∃ us, (if bool_decide (is_Some (e_spin e)) then
      p ← opt_res (k_spin k !! u_spin u);
      Ok ([p_imp p], Cursor (u_con u) (S (u_row u)) uf ur (S (u_spin u)))
      else Ok ([], Cursor (u_con u) (S (u_row u)) uf ur (u_spin u)))
      = Ok (from_option (λ p, [p_imp p]) [] (e_spin e),
            Cursor (u_con u) (S (u_row u)) uf ur us)
      ∧ drop us (k_spin k) = spins_at (S (u_row u)) (a ++ b)) as (us & Es & Hs).
  { destruct (e_spin e) as [f|]; simpl in *.
    - apply drop_lookup in H5 as [L5 H5]. rewrite L5. by exists (S (u_spin u)).
    - by exists (u_spin u). }
  cbn [u_con u_row u_fric u_roll u_spin]. rewrite Es. cbn [mbind res_bind].
  destruct (IH (Cursor (u_con u) (S (u_row u)) uf ur us)) as (u' & E & Ht & Hc).
  { by split; [|split; [|split; [|split]]]. }
  rewrite E. cbn [mbind res_bind]. exists u'. split; [|done].
  cbn [map concat]. unfold elem_values at 2. simpl. by rewrite <- !app_assoc.
Qed.

End sim.

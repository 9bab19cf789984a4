(** Specification for the dynamic tree: what a well formed tree is, which
    leaves it must hold after a history of calls, and what a query must visit. *)
From Verif Require Import Outcome Chain TreeModel.

Section spec.
Context {box : Type} (sub : box → box → Prop).

(** The nodes reachable from [i] form a binary tree with parent [par]: every
    child points back to its parent, heights are exact and boxes enclose the
    children's boxes.  The lists are all the ids and the leaves. *)
Inductive subtree (ns : list (tnode box)) : option nat → nat → list nat → list nat → Z → Prop :=
| st_leaf par i n :
    ns !! i = Some n → tn_link n = par → tn_c1 n = None → tn_h n = 0%Z →
    subtree ns par i [i] [i] 0%Z
| st_node par i n l r nl nr il ir ll lr hl hr :
    ns !! i = Some n → tn_link n = par → tn_c1 n = Some l → tn_c2 n = Some r →
    subtree ns (Some i) l il ll hl → subtree ns (Some i) r ir lr hr →
    ns !! l = Some nl → ns !! r = Some nr →
    tn_h n = (1 + Z.max hl hr)%Z → sub (tn_box nl) (tn_box n) → sub (tn_box nr) (tn_box n) →
    subtree ns par i (i :: il ++ ir) (ll ++ lr) (1 + Z.max hl hr)%Z.

(** What the user knows about a live leaf: its entity, the box last given to
    create or move, and the box the tree stores. *)
Record leaf := Leaf { lf_ent : option nat; lf_given : box; lf_box : box }.

Record tree_ok (T : tree box) (m : gmap nat leaf) : Prop := {
  (** one binary tree whose leaves are the live ids, and a free list; together
      they partition the slots *)
  ok_shape : ∃ ids lvs free,
    match t_root T with
    | None => ids = [] ∧ lvs = []
    | Some r => ∃ h, subtree (t_nodes T) None r ids lvs h
    end ∧
    (∀ i, i ∈ lvs ↔ is_Some (m !! i)) ∧
    chain (λ i, tn_link <$> t_nodes T !! i) (t_free T) free ∧
    NoDup (ids ++ free) ∧ (∀ i, i ∈ ids ++ free ↔ i < length (t_nodes T));
  (** every live leaf keeps its entity and stored box *)
  ok_leaf : ∀ i lf, m !! i = Some lf → ∃ n, t_nodes T !! i = Some n ∧
    tn_c1 n = None ∧ tn_c2 n = lf_ent lf ∧ tn_box n = lf_box lf;
  (** and that box contains the one last given *)
  ok_given : ∀ i lf, m !! i = Some lf → sub (lf_given lf) (lf_box lf) }.
End spec.
Arguments leaf : clear implicits.

(** Histories of calls on a tree that starts empty, with the leaves they leave
    alive.  [destroy] and [move] are called on live ids only; the ids are those
    returned by [create]. *)
Section hist.
Context {box scalar : Type}.
Context (enclose : box → box → box) (inset : box → box) (contains : box → box → bool).
Context (area : box → scalar) (s_add s_sub s_mul : scalar → scalar → scalar)
        (s_two : scalar) (s_lt : scalar → scalar → bool) (box0 : box).
Notation create := (create enclose inset area s_add s_sub s_mul s_two s_lt box0).
Notation destroy := (destroy enclose).
Notation move := (move enclose inset contains area s_add s_sub s_mul s_two s_lt box0).

Inductive treach : tree box → gmap nat (leaf box) → Prop :=
| tr_empty : treach t_empty ∅
| tr_create T m b e T' id :
    treach T m → create T b e = Ok (T', id) → treach T' (<[id := Leaf e b (inset b)]> m)
| tr_destroy T m id lf T' :
    treach T m → m !! id = Some lf → destroy T id = Ok T' → treach T' (delete id m)
| tr_move T m id lf b T' moved :
    treach T m → m !! id = Some lf → move T id b = Ok (T', moved) →
    treach T' (<[id := Leaf (lf_ent lf) b (if moved then inset b else lf_box lf)]> m)
| tr_clear T m : treach T m → treach (tclear T) ∅.
End hist.

(** The same histories as a function of the list of calls; [UB] when a call
    names an id that is not live. *)
Section run.
Context {box scalar : Type}.
Context (enclose : box → box → box) (inset : box → box) (contains : box → box → bool).
Context (area : box → scalar) (s_add s_sub s_mul : scalar → scalar → scalar)
        (s_two : scalar) (s_lt : scalar → scalar → bool) (box0 : box).
Inductive top_ := OCreate (b : box) (e : option nat) | ODestroy (id : nat) | OMove (id : nat) (b : box) | OClear.
Definition tstep (s : tree box * gmap nat (leaf box)) (o : top_) : res (tree box * gmap nat (leaf box)) :=
  let '(T, m) := s in
  match o with
  | OCreate b e =>
    '(T', id) ← create enclose inset area s_add s_sub s_mul s_two s_lt box0 T b e;
    Ok (T', <[id := Leaf e b (inset b)]> m)
  | ODestroy id =>
    _ ← opt_res (m !! id); T' ← destroy enclose T id; Ok (T', delete id m)
  | OMove id b =>
    lf ← opt_res (m !! id);
    '(T', moved) ← move enclose inset contains area s_add s_sub s_mul s_two s_lt box0 T id b;
    Ok (T', <[id := Leaf (lf_ent lf) b (if moved : bool then inset b else lf_box lf)]> m)
  | OClear => Ok (tclear T, ∅)
  end.
Fixpoint trun (s : tree box * gmap nat (leaf box)) (os : list top_) : res (tree box * gmap nat (leaf box)) :=
  match os with
  | [] => Ok s
  | o :: os => s' ← tstep s o; trun s' os
  end.
Notation treach := (treach enclose inset contains area s_add s_sub s_mul s_two s_lt box0).
Lemma trun_reach s os s' : treach s.1 s.2 → trun s os = Ok s' → treach s'.1 s'.2.
Proof.
  revert s. induction os as [|o os IH]; intros [T m] Hr; cbn [trun].
  - intros [= <-]. done.
  - rewrite bind_ok. intros (s1 & Hs & Hrun). apply IH in Hrun; [done|]. clear IH Hrun. simpl in Hr.
    destruct o as [b e|id|id b|]; cbn [tstep] in Hs.
    + apply bind_ok in Hs as ([T' id] & Hc & Hs). injection Hs as <-. by eapply tr_create.
    + apply bind_ok in Hs as (lf & Hl & Hs). apply bind_ok in Hs as (T' & Hd & Hs). injection Hs as <-.
      destruct (m !! id) eqn:E; [|done]. by eapply tr_destroy.
    + apply bind_ok in Hs as (lf & Hl & Hs). apply bind_ok in Hs as ([T' mv] & Hd & Hs). injection Hs as <-.
      destruct (m !! id) eqn:E; [|done]. simpl in Hl. simplify_eq. by eapply tr_move.
    + injection Hs as <-. by eapply tr_clear.
Qed.
End run.
Arguments top_ : clear implicits.

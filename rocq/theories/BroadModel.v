(** Model of the broadphase: src/edyn/collision/broadphase.cpp and
    include/edyn/collision/broadphase.hpp, on the trees of TreeModel.v and the
    manifold map of MapModel.v, with the parts of src/edyn/util/rigidbody.cpp
    that give a body its AABB or take it away.

    The tree of island AABBs is left out.  The order in which EnTT visits the
    entities of a view is an arbitrary function [ord].  [should_collide_func] is
    an arbitrary function of the two entities, given to each update.  Bodies with
    the procedural tag are the dynamic ones (rigidbody.cpp:551-555). *)
From Verif Require Export Outcome TreeModel BoxModel MapModel.

(** The scalar operations and the three margins: [aabb_inset] of
    dynamic_tree.cpp (given to the tree), [m_aabb_offset] (broadphase.hpp:15) and
    [vector3_one * -m_separation_threshold] (broadphase.hpp:18, broadphase.cpp:127). *)
Record geom := Geom {
  g_T : Type;
  g_leb : g_T → g_T → bool; g_ltb : g_T → g_T → bool;
  g_add : g_T → g_T → g_T; g_sub : g_T → g_T → g_T; g_mul : g_T → g_T → g_T; g_two : g_T;
  g_fat : vec g_T; g_off : vec g_T; g_sep : vec g_T;
  g_box0 : aabb g_T }.

Section model.
Context (G : geom) (ord : gset nat → list nat).
Notation box := (aabb (g_T G)).

Definition t_inset (b : box) : box := bx_inset (g_add G) (g_sub G) b (g_fat G).
Definition t_create : tree box → box → option nat → res (tree box * nat) :=
  create (bx_enclose (g_ltb G)) t_inset (bx_area (g_add G) (g_sub G) (g_mul G) (g_two G))
    (g_add G) (g_sub G) (g_mul G) (g_two G) (g_ltb G) (g_box0 G).
Definition t_destroy : tree box → nat → res (tree box) := destroy (bx_enclose (g_ltb G)).
Definition t_move : tree box → nat → box → res (tree box * bool) :=
  move (bx_enclose (g_ltb G)) t_inset (bx_contains (g_leb G)) (bx_area (g_add G) (g_sub G) (g_mul G) (g_two G))
    (g_add G) (g_sub G) (g_mul G) (g_two G) (g_ltb G) (g_box0 G).
Definition touch (b c : box) : bool := bx_intersect (g_leb G) b c.

(** The registry and the members of [broadphase]. *)
Record bw := BW {
  b_tree : tree box;                 (* m_tree *)
  b_np : tree box;                   (* m_np_tree *)
  b_new : list nat;                  (* m_new_aabb_entities *)
  b_valid : gset nat;                (* valid entities *)
  b_aabb : gmap nat box;             (* AABB *)
  b_res : gmap nat (nat * bool);     (* tree_resident: id, procedural *)
  b_proc : gset nat;                 (* procedural_tag *)
  b_kin : gset nat;                  (* kinematic_tag *)
  b_off : gset nat;                  (* sleeping_tag or disabled_tag *)
  b_dis : gset nat;                  (* disabled_tag *)
  b_man : mmap;                      (* contact_manifold and contact_manifold_map *)
  b_next : nat }.                    (* the next entity *)
Definition b_empty : bw := BW t_empty t_empty [] ∅ ∅ ∅ ∅ ∅ ∅ ∅ mm_empty 0.

Definition set_tree (w : bw) (p : bool) (t : tree box) : bw :=
  BW (if p then t else b_tree w) (if p then b_np w else t) (b_new w) (b_valid w) (b_aabb w) (b_res w)
     (b_proc w) (b_kin w) (b_off w) (b_dis w) (b_man w) (b_next w).
Definition tree_of (w : bw) (p : bool) : tree box := if p then b_tree w else b_np w.
Definition set_new (w : bw) (l : list nat) : bw :=
  BW (b_tree w) (b_np w) l (b_valid w) (b_aabb w) (b_res w) (b_proc w) (b_kin w) (b_off w) (b_dis w) (b_man w) (b_next w).
Definition set_aabb (w : bw) (m : gmap nat box) : bw :=
  BW (b_tree w) (b_np w) (b_new w) (b_valid w) m (b_res w) (b_proc w) (b_kin w) (b_off w) (b_dis w) (b_man w) (b_next w).
Definition set_res (w : bw) (m : gmap nat (nat * bool)) : bw :=
  BW (b_tree w) (b_np w) (b_new w) (b_valid w) (b_aabb w) m (b_proc w) (b_kin w) (b_off w) (b_dis w) (b_man w) (b_next w).
Definition set_ents (w : bw) (v p k : gset nat) : bw :=
  BW (b_tree w) (b_np w) (b_new w) v (b_aabb w) (b_res w) p k (b_off w) (b_dis w) (b_man w) (b_next w).
Definition set_tags (w : bw) (o d : gset nat) : bw :=
  BW (b_tree w) (b_np w) (b_new w) (b_valid w) (b_aabb w) (b_res w) (b_proc w) (b_kin w) o d (b_man w) (b_next w).
Definition set_man (w : bw) (m : mmap) : bw :=
  BW (b_tree w) (b_np w) (b_new w) (b_valid w) (b_aabb w) (b_res w) (b_proc w) (b_kin w) (b_off w) (b_dis w) m (b_next w).
Definition set_next (w : bw) (n : nat) : bw :=
  BW (b_tree w) (b_np w) (b_new w) (b_valid w) (b_aabb w) (b_res w) (b_proc w) (b_kin w) (b_off w) (b_dis w) (b_man w) n.
Definition fold_w {A} (f : bw → A → res bw) (w : bw) (l : list A) : res bw := foldl (λ r x, w ← r; f w x) (Ok w) l.

(** registry.create() *)
Definition new_ent (w : bw) : bw * nat :=
  (set_next (set_ents w ({[b_next w]} ∪ b_valid w) (b_proc w) (b_kin w)) (S (b_next w)), b_next w).

(** make_contact_manifold, src/edyn/util/constraint_util.cpp:60-74; every entity
    with an AABB is a rigid body *)
Definition make_manifold (w : bw) (a b : nat) : res bw :=
  let '(w, m) := new_ent w in
  _ ← assert_ (bool_decide (a ∈ b_valid w) && bool_decide (b ∈ b_valid w));
  _ ← assert_ (bool_decide (a ∈ b_proc w) || bool_decide (b ∈ b_proc w));
  s ← mm_create (b_man w) m a b;
  Ok (set_man w s).
(** registry.destroy of a manifold *)
Definition kill_manifold (w : bw) (m : nat) : res bw :=
  s ← mm_destroy (b_man w) m;
  Ok (set_man (set_tags (set_ents w (b_valid w ∖ {[m]}) (b_proc w) (b_kin w)) (b_off w ∖ {[m]}) (b_dis w ∖ {[m]})) s).

(** on_destroy_tree_resident, broadphase.cpp:54-62, with the removal *)
Definition drop_resident (w : bw) (e : nat) : res bw :=
  '(id, p) ← opt_res (b_res w !! e);
  t ← t_destroy (tree_of w p) id;
  Ok (set_res (set_tree w p t) (delete e (b_res w))).
(** Removal of the AABB: on_destroy_aabb, broadphase.cpp:48-52 *)
Definition drop_aabb (w : bw) (e : nat) : res bw :=
  w ← (if decide (is_Some (b_res w !! e)) then drop_resident w e else Ok w);
  Ok (set_aabb w (delete e (b_aabb w))).
(** Construction of the AABB: on_construct_aabb, broadphase.cpp:43-46 *)
Definition add_aabb (w : bw) (e : nat) (b : box) : res bw :=
  _ ← require_ (bool_decide (b_aabb w !! e = None));
  Ok (set_new (set_aabb w (<[e := b]> (b_aabb w))) (b_new w ++ [e])).

(** ** broadphase::update *)
(** init_new_aabb_entities, broadphase.cpp:75-97; a second emplace of
    tree_resident is undefined *)
Definition init_one (w : bw) (e : nat) : res bw :=
  match b_aabb w !! e with
  | None => Ok w
  | Some b =>
    let p := bool_decide (e ∈ b_proc w) in
    '(t, id) ← t_create (tree_of w p) b (Some e);
    _ ← require_ (bool_decide (b_res w !! e = None));
    Ok (set_res (set_tree w p t) (<[e := (id, p)]> (b_res w)))
  end.
Definition init_new (w : bw) : res bw :=
  w ← fold_w init_one w (filter (λ e, e ∈ b_valid w) (b_new w));
  Ok (set_new w []).

(** destroy_separated_manifolds, broadphase.cpp:119-134; getting an AABB that is
    not there is undefined *)
Definition sep_one (w : bw) (m : nat) : res bw :=
  '(a, b) ← opt_res (mm_body (b_man w) !! m);
  b0 ← opt_res (b_aabb w !! a);
  b1 ← opt_res (b_aabb w !! b);
  if touch (bx_inset (g_add G) (g_sub G) b0 (g_sep G)) b1 then Ok w else kill_manifold w m.
Definition man_view (w : bw) : list nat := ord (dom (mm_body (b_man w)) ∖ b_off w).
Definition destroy_separated (w : bw) : res bw := fold_w sep_one w (man_view w).

(** move_aabbs, broadphase.cpp:99-111 *)
Definition move_one (p : bool) (w : bw) (e : nat) : res bw :=
  '(id, _) ← opt_res (b_res w !! e);
  b ← opt_res (b_aabb w !! e);
  '(t, _) ← t_move (tree_of w p) id b;
  Ok (set_tree w p t).
Definition move_view (w : bw) (tag : gset nat) : list nat := ord ((dom (b_res w) ∩ dom (b_aabb w) ∩ tag) ∖ b_off w).
Definition move_aabbs (w : bw) : res bw :=
  w ← fold_w (move_one true) w (move_view w (b_proc w));
  fold_w (move_one false) w (move_view w (b_kin w)).

(** collide_tree, broadphase.cpp:136-155 *)
Definition collide_one (sc : nat → nat → bool) (t : tree box) (e : nat) (q : box) (w : bw) (id : nat) : res bw :=
  n ← get_node t id;
  o ← opt_res (tn_c2 n);
  if sc e o && negb (mm_contains (b_man w) e o) && negb (bool_decide (o ∈ b_dis w)) then
    b ← opt_res (b_aabb w !! o);
    if touch q b then make_manifold w e o else Ok w
  else Ok w.
Definition collide_tree (sc : nat → nat → bool) (p : bool) (e : nat) (q : box) (w : bw) : res bw :=
  l ← traverse_tree (tree_of w p) (λ b, touch b q);
  fold_w (collide_one sc (tree_of w p) e q) w l.
Definition off_box (b : box) : box := bx_inset (g_add G) (g_sub G) b (g_off G).
(** The loop of broadphase.cpp:189-193 *)
Definition collide_seq (sc : nat → nat → bool) (w : bw) (e : nat) : res bw :=
  b ← opt_res (b_aabb w !! e);
  w ← collide_tree sc true e (off_box b) w;
  collide_tree sc false e (off_box b) w.

(** collide_tree_async, broadphase.cpp:157-175: the pairs found *)
Definition pairs_one (sc : nat → nat → bool) (t : tree box) (e : nat) (q : box) (w : bw) (id : nat)
  : res (list (nat * nat)) :=
  n ← get_node t id;
  o ← opt_res (tn_c2 n);
  if sc e o && negb (bool_decide (o ∈ b_dis w)) then
    b ← opt_res (b_aabb w !! o);
    Ok (if touch q b then [(e, o)] else [])
  else Ok [].
Definition concat_res {A} (ls : list (res (list A))) : res (list A) :=
  foldr (λ m acc, l ← m; r ← acc; Ok (l ++ r)) (Ok []) ls.
Definition pairs_tree (sc : nat → nat → bool) (p : bool) (e : nat) (q : box) (w : bw) : res (list (nat * nat)) :=
  l ← traverse_tree (tree_of w p) (λ b, touch b q);
  concat_res (map (pairs_one sc (tree_of w p) e q w) l).
(** collide_parallel_task, broadphase.cpp:197-210, for one index.  Each index is
    run exactly once (C16) and writes its own element of m_pair_results, which
    finish_collide has left empty. *)
Definition pairs_of (sc : nat → nat → bool) (w : bw) (e : nat) : res (list (nat * nat)) :=
  b ← opt_res (b_aabb w !! e);
  l1 ← pairs_tree sc true e (off_box b) w;
  l2 ← pairs_tree sc false e (off_box b) w;
  Ok (l1 ++ l2).
(** finish_collide, broadphase.cpp:221-232 *)
Definition finish_one (w : bw) (p : nat * nat) : res bw :=
  if mm_contains (b_man w) p.1 p.2 then Ok w else make_manifold w p.1 p.2.

(** broadphase::update, broadphase.cpp:177-195; m_max_sequential_size is 8 *)
Definition proc_view (w : bw) : list nat := ord ((dom (b_aabb w) ∩ b_proc w) ∖ b_off w).
Definition update (mt : bool) (sc : nat → nat → bool) (w : bw) : res bw :=
  w ← init_new w;
  w ← destroy_separated w;
  w ← move_aabbs w;
  if mt && bool_decide (8 < length (proc_view w)) then
    ps ← concat_res (map (pairs_of sc w) (proc_view w));
    fold_w finish_one w ps
  else fold_w (collide_seq sc) w (proc_view w).

(** query_procedural and query_non_procedural, broadphase.hpp:81-93: the entities
    passed to the function *)
Definition leaf_entity (t : tree box) (id : nat) : res nat := n ← get_node t id; opt_res (tn_c2 n).
Definition query (w : bw) (p : bool) (q : box) : res (list nat) :=
  l ← traverse_tree (tree_of w p) (λ b, touch b q);
  foldr (λ id acc, e ← leaf_entity (tree_of w p) id; r ← acc; Ok (e :: r)) (Ok []) l.

(** set_procedural, broadphase.cpp:242-265 *)
Definition set_procedural (w : bw) (e : nat) (p : bool) : res bw :=
  match b_aabb w !! e, b_res w !! e with
  | Some b, Some (id, q) =>
    if decide (q = p) then Ok w
    else
      t ← t_destroy (tree_of w q) id;
      let w := set_tree w q t in
      '(t, id) ← t_create (tree_of w p) b (Some e);
      Ok (set_res (set_tree w p t) (<[e := (id, p)]> (b_res w)))
  | _, _ => Ok w
  end.

(** ** Histories *)
Inductive kind := Dynamic | Kinematic | Static.
Definition kind_proc (k : kind) : bool := match k with Dynamic => true | _ => false end.
(** rigidbody_replace_kind_tags, rigidbody.cpp:550-566 *)
Definition set_kind (w : bw) (e : nat) (k : kind) : bw :=
  set_ents w (b_valid w)
    (match k with Dynamic => {[e]} ∪ b_proc w | _ => b_proc w ∖ {[e]} end)
    (match k with Kinematic => {[e]} ∪ b_kin w | _ => b_kin w ∖ {[e]} end).
Inductive bop :=
| NewBody (k : kind) (b : option box)   (* make_rigidbody, with or without a shape *)
| AddShape (e : nat) (b : box)          (* rigidbody_set_shape of a body without a shape, rigidbody.cpp:439-447 *)
| DropShape (e : nat)                   (* rigidbody_set_shape to none, rigidbody.cpp:475-483 *)
| DelBody (e : nat)                     (* registry.destroy of a body *)
| SetKind (e : nat) (k : kind)          (* rigidbody_apply_kind, rigidbody.cpp:579-589; the removal of manifolds is by DelManifold *)
| SetAabb (e : nat) (b : box)           (* update_aabb of one body *)
| SetTags (o d : gset nat)              (* the sleeping and disabled tags *)
| DelManifold (m : nat)
| SwapManifold (m : nat)
| InitNew                               (* stepper_sequential.cpp:66 *)
| Update (mt : bool) (sc : nat → nat → bool).
(** The manifolds of a body are edges of the entity graph: destroying the body
    destroys them (island_manager.cpp:47-66). *)
Definition manifolds_of (w : bw) (e : nat) : list nat :=
  ord (dom (filter (λ kv : nat * (nat * nat), kv.2.1 = e ∨ kv.2.2 = e) (mm_body (b_man w)))).
Definition bstep (w : bw) (o : bop) : res bw :=
  match o with
  | NewBody k b =>
    let '(w, e) := new_ent w in
    let w := set_kind w e k in
    match b with Some b => add_aabb w e b | None => Ok w end
  | AddShape e b => _ ← require_ (bool_decide (e ∈ b_valid w)); add_aabb w e b
  | DropShape e => _ ← require_ (bool_decide (is_Some (b_aabb w !! e))); drop_aabb w e
  | DelBody e =>
    _ ← require_ (bool_decide (e ∈ b_valid w));
    w ← fold_w kill_manifold w (manifolds_of w e);
    w ← drop_aabb w e;
    Ok (set_tags (set_ents w (b_valid w ∖ {[e]}) (b_proc w ∖ {[e]}) (b_kin w ∖ {[e]})) (b_off w ∖ {[e]}) (b_dis w ∖ {[e]}))
  | SetKind e k =>
    _ ← require_ (bool_decide (e ∈ b_valid w));
    set_procedural (set_kind w e k) e (kind_proc k)
  | SetAabb e b => _ ← require_ (bool_decide (is_Some (b_aabb w !! e))); Ok (set_aabb w (<[e := b]> (b_aabb w)))
  | SetTags o d => Ok (set_tags w (o ∪ d) d)
  | DelManifold m => kill_manifold w m
  | SwapManifold m => s ← mm_swap (b_man w) m; Ok (set_man w s)
  | InitNew => init_new w
  | Update mt sc => update mt sc w
  end.
Definition brun (w : bw) (os : list bop) : res bw := fold_w bstep w os.
End model.

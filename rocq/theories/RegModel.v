(** Model of the replication of one registry into another:
    include/edyn/replication/registry_operation.hpp, registry_operation_builder.hpp,
    registry_operation_observer.hpp, map_child_entity.hpp and
    src/edyn/replication/map_child_entity.cpp. *)
From Verif Require Import Outcome MapModel.
From Verif Require Export RegTypes.

(** ** The parts of an entt::registry that matter here
    Entities carry a version in EnTT, so an identifier is not handed out twice
    (until the version wraps around, outside the model): [rg_next] is the next
    unused identifier. Components are a finite map from (type, entity). *)
Record reg := Reg { rg_alive : gset nat; rg_next : nat; rg_comp : gmap (nat * nat) value }.
Definition rg_empty : reg := Reg ∅ 0 ∅.
Definition rg_valid (r : reg) (e : nat) : bool := bool_decide (e ∈ rg_alive r).
Definition rg_has (r : reg) (t e : nat) : bool := bool_decide (is_Some (rg_comp r !! (t, e))).
Definition rg_create (r : reg) : reg * nat :=
  (Reg ({[rg_next r]} ∪ rg_alive r) (S (rg_next r)) (rg_comp r), rg_next r).
Definition rg_destroy (r : reg) (e : nat) : reg :=
  Reg (rg_alive r ∖ {[e]}) (rg_next r) (filter (λ kv, kv.1.2 ≠ e) (rg_comp r)).
Definition rg_put (r : reg) (t e : nat) (v : value) : reg :=
  Reg (rg_alive r) (rg_next r) (<[(t, e) := v]> (rg_comp r)).
Definition rg_del (r : reg) (t e : nat) : reg :=
  Reg (rg_alive r) (rg_next r) (delete (t, e) (rg_comp r)).
(** registry.emplace<C>(e): a dead entity or a second component is UB. *)
Definition rg_emplace (r : reg) (t e : nat) (v : value) : res reg :=
  _ ← require_ (rg_valid r e && negb (rg_has r t e)); Ok (rg_put r t e v).
(** registry.patch<C>(e, f): the component must be present. *)
Definition rg_patch (r : reg) (t e : nat) (f : value → value) : res reg :=
  v ← opt_res (rg_comp r !! (t, e)); Ok (rg_put r t e (f v)).

(** ** map_child_entity *)
(** std::remove_if followed by erasing the tail when the container can shrink,
    map_child_entity.cpp:6-20. For a fixed-size array the kept elements move to
    the front and the tail stays as it is. The meta iterators are taken to
    write through to the container. *)
Definition rm_null_seq (l : list (option nat)) : list (option nat) := filter is_Some l.
Definition rm_null_arr (l : list (option nat)) : list (option nat) :=
  let k := filter is_Some l in k ++ drop (length k) l.
(** An entity becomes its local counterpart or null, map_child_entity.hpp:22-33,
    map_child_entity.cpp:27-36. *)
Definition map_ent (m : emap) (o : option nat) : option nat :=
  match o with
  | Some r => if em_contains m r then em_map m !! r else None
  | None => None
  end.
(** map_child_entity_meta, map_child_entity.hpp:17-66; for associative
    containers map_child_entity.cpp:55-73 (entries that cannot be mapped are
    erased). *)
Definition map_mem (m : emap) (x : mem) : mem :=
  match x with
  | MRaw n => MRaw n
  | MEnt o => MEnt (map_ent m o)
  | MArr l => MArr (rm_null_arr (map_ent m <$> l))
  | MSeq l => MSeq (rm_null_seq (map_ent m <$> l))
  | MAssoc a => MAssoc (omap (λ o, Some <$> map_ent m o) a)
  end.
(** set_invalid_child_entity_to_null_meta, map_child_entity.hpp:68-98,
    map_child_entity.cpp:41-53; associative containers are not visited. *)
Definition inval_ent (r : reg) (o : option nat) : option nat :=
  match o with Some e => if rg_valid r e then Some e else None | None => None end.
Definition inval_mem (r : reg) (x : mem) : mem :=
  match x with
  | MRaw n => MRaw n
  | MEnt o => MEnt (inval_ent r o)
  | MArr l => MArr (rm_null_arr (inval_ent r <$> l))
  | MSeq l => MSeq (rm_null_seq (inval_ent r <$> l))
  | MAssoc a => MAssoc a
  end.
(** map_child_entity.hpp:100-113 *)
Definition map_child (r : reg) (m : emap) (v : value) : value := inval_mem r <$> (map_mem m <$> v).
Definition map_child_nv (m : emap) (v : value) : value := map_mem m <$> v.

Section exec.
(** merge_component(current, new) per component type
    (include/edyn/comp/merge_component.hpp:13-16; overloads in action_list.hpp:36-41,
    discontinuity.hpp:22-25) and std::is_empty_v per type. *)
Variable merge : nat → value → value → value.
Variable empty_ty : nat → bool.

(** ** operation_*::execute(registry, entity_map), registry_operation.hpp:56-248 *)
Definition op_exec (s : reg * emap) (o : opn) : res (reg * emap) :=
  let '(r, m) := s in
  match o with
  | OCreate e =>                                                  (* 56-61 *)
    if em_contains m e then Ok (r, m) else
    let '(r', l) := rg_create r in
    m' ← em_insert m e l; Ok (r', m')
  | ODestroy e =>                                                 (* 79-88 *)
    if em_contains m e then
      l ← em_at m e; m' ← em_erase m e;
      Ok (if rg_valid r l then rg_destroy r l else r, m')
    else Ok (r, m)
  | OMapEntity e l =>                                             (* 112-120 *)
    if rg_valid r l then
      if em_contains m e then
        l' ← em_at m e; _ ← assert_ (bool_decide (l' = l)); Ok (r, m)
      else m' ← em_insert m e l; Ok (r, m')
    else Ok (r, m)
  | OEmplace t e v =>                                             (* 143-161 *)
    if em_contains m e then
      l ← em_at m e;
      if negb (rg_valid r l) || rg_has r t l then Ok (r, m) else
      r' ← rg_emplace r t l (if empty_ty t then [] else map_child r m v); Ok (r', m)
    else Ok (r, m)
  | OReplace t e v =>                                             (* 195-214 *)
    if empty_ty t then Ok (r, m) else
    if em_contains m e then
      l ← em_at m e;
      if negb (rg_valid r l) || negb (rg_has r t l) then Ok (r, m) else
      r' ← rg_patch r t l (λ cur, merge t cur (map_child r m v)); Ok (r', m)
    else Ok (r, m)
  | ORemove t e =>                                                (* 244-256 *)
    if em_contains m e then
      l ← em_at m e;
      Ok (if rg_valid r l then rg_del r t l else r, m)
    else Ok (r, m)
  end.
(** registry_operation::execute(registry, entity_map), 326-332; the extra
    callbacks are not modelled. *)
Fixpoint exec_ops (s : reg * emap) (ops : list opn) : res (reg * emap) :=
  match ops with
  | [] => Ok s
  | o :: ops => s' ← op_exec s o; exec_ops s' ops
  end.

(** ** operation_*::execute(registry): entities are already local *)
Definition op_exec_local (r : reg) (o : opn) : res reg :=
  match o with
  | OCreate _ | OMapEntity _ _ => Ok r                            (* 63, 122 *)
  | ODestroy e => Ok (if rg_valid r e then rg_destroy r e else r) (* 90-94 *)
  | OEmplace t e v =>                                             (* 163-173 *)
    if negb (rg_valid r e) || rg_has r t e then Ok r
    else rg_emplace r t e (if empty_ty t then [] else v)
  | OReplace t e v =>                                             (* 216-226 *)
    if empty_ty t then Ok r else
    if negb (rg_valid r e) || negb (rg_has r t e) then Ok r
    else rg_patch r t e (λ cur, merge t cur v)
  | ORemove t e => Ok (if rg_valid r e then rg_del r t e else r)  (* 258-262 *)
  end.
(** 334-338 *)
Fixpoint exec_local (r : reg) (ops : list opn) : res reg :=
  match ops with
  | [] => Ok r
  | o :: ops => r' ← op_exec_local r o; exec_local r' ops
  end.

(** ** operation_*::remap, 65-67, 96-98, 124-127, 175-178, 228-231, 264-266 *)
Definition op_remap (m : emap) (o : opn) : res opn :=
  match o with
  | OCreate e => l ← em_at m e; Ok (OCreate l)
  | ODestroy e => l ← em_at m e; Ok (ODestroy l)
  | OMapEntity e l => e' ← em_at m e; l' ← em_at_local m l; Ok (OMapEntity e' l')
  | OEmplace t e v => l ← em_at m e; Ok (OEmplace t l (map_child_nv m v))
  | OReplace t e v => l ← em_at m e; Ok (OReplace t l (map_child_nv m v))
  | ORemove t e => l ← em_at m e; Ok (ORemove t l)
  end.
(** 340-344 *)
Fixpoint remap_ops (m : emap) (ops : list opn) : res (list opn) :=
  match ops with
  | [] => Ok []
  | o :: ops => o' ← op_remap m o; ops' ← remap_ops m ops; Ok (o' :: ops')
  end.

(** ** A source registry with an observer recording into a builder, and the
    destination the recorded operations are executed on. [shared] is the tuple
    of replicated component types. *)
Variable shared : list nat.
Record sys := Sys {
  y_src : reg; y_obs : gset nat; y_ops : list opn;  (* source, m_observed_entities, builder *)
  y_dst : reg; y_map : emap
}.
(** builder.emplace_all(entity), registry_operation_builder.hpp:250-252 with 100-108 *)
Definition emplace_all (r : reg) (e : nat) : list opn :=
  omap (λ t, v ← rg_comp r !! (t, e); Some (OEmplace t e v)) shared.
(** The on_destroy signals of the shared components an entity has. *)
Definition remove_all (r : reg) (e : nat) : list opn :=
  omap (λ t, v ← rg_comp r !! (t, e); Some (ORemove t e)) shared.

Definition y_rec (s : sys) (src : reg) (obs : gset nat) (ops : list opn) : sys :=
  Sys src obs (y_ops s ++ ops) (y_dst s) (y_map s).
(** Whether the observer of type [t] records for [e],
    registry_operation_observer.hpp:57-75. *)
Definition rec_if (s : sys) (t e : nat) (o : opn) : list opn :=
  if bool_decide (t ∈ shared) && bool_decide (e ∈ y_obs s) then [o] else [].
Definition sys_step (s : sys) (a : act) : res sys :=
  match a with
  | ACreate => Ok (y_rec s (rg_create (y_src s)).1 (y_obs s) [])
  | ADestroy e =>
    _ ← require_ (rg_valid (y_src s) e);
    Ok (y_rec s (rg_destroy (y_src s) e) (y_obs s)
          (if bool_decide (e ∈ y_obs s) then remove_all (y_src s) e else []))
  | AEmplace t e v =>                                   (* on_construct, 57-61 *)
    src ← rg_emplace (y_src s) t e v;
    Ok (y_rec s src (y_obs s) (rec_if s t e (OEmplace t e v)))
  | APatch t e v =>                                     (* on_update, 64-68 *)
    src ← rg_patch (y_src s) t e (λ _, v);
    Ok (y_rec s src (y_obs s) (rec_if s t e (OReplace t e v)))
  | ARemove t e =>                                      (* on_destroy, 71-75 *)
    if rg_has (y_src s) t e
    then Ok (y_rec s (rg_del (y_src s) t e) (y_obs s) (rec_if s t e (ORemove t e)))
    else Ok s
  | AObserve e =>                                       (* observe, 21-28; pushing twice is UB *)
    _ ← require_ (negb (bool_decide (e ∈ y_obs s)));
    Ok (y_rec s (y_src s) ({[e]} ∪ y_obs s) (OCreate e :: emplace_all (y_src s) e))
  | AUnobserve e =>                                     (* unobserve, 30-36; erasing an absent element is UB *)
    _ ← require_ (bool_decide (e ∈ y_obs s));
    Ok (y_rec s (y_src s) (y_obs s ∖ {[e]}) [ODestroy e])
  | AFlush =>                                           (* finish() and execute at the destination *)
    '(d, m) ← exec_ops (y_dst s, y_map s) (y_ops s);
    Ok (Sys (y_src s) (y_obs s) [] d m)
  end.
End exec.

(** ** Storage of the operations: make_op, registry_operation_builder.hpp:24-45,
    finish 186-189, registry_operation constructors registry_operation.hpp:290-306.
    Only sizes and offsets are kept: a block is its size, an operation is
    (block index, offset, size). *)
Definition block_unit : nat := 32.
Definition max_block : nat := 32 * 256.
Definition default_block : nat := 32 * 4.
Record store := Store { st_blocks : list nat; st_index : nat; st_ops : list (nat * nat * nat) }.
Definition st_new : store := Store [default_block] 0 [].
Definition make_op (s : store) (size : nat) : res store :=
  _ ← require_ (size <=? max_block);                    (* static_assert *)
  back ← opt_res (last (st_blocks s));
  let s' := if back <? st_index s + size
            then Store (st_blocks s ++ [Nat.min (size * block_unit) max_block]) 0 (st_ops s) else s in
  Ok (Store (st_blocks s') (st_index s' + size)
        (st_ops s' ++ [(length (st_blocks s') - 1, st_index s', size)])).
(** The operations handed out so far travel with the moved-from blocks; the
    builder continues with one fresh block. *)
Definition st_finish (s : store) : store := Store [default_block] 0 [].

(** Registry snapshots: collecting components, wire format, applying them.
    include/edyn/networking/util/pool_snapshot_data.hpp, pool_snapshot.hpp,
    packet/registry_snapshot.hpp, util/client_snapshot_importer.hpp.
    Component values are the values of S11nTypes, [TEmpty] being the empty component
    types; a registry is a partial function from entity and component index. *)
From Verif Require Import Outcome.
From Verif Require Export S11nModel.
Local Open Scope nat_scope.

Definition is_empty (t : ty) : bool := match t with TEmpty => true | _ => false end.

(** pool_snapshot (pool_snapshot.hpp 13–16) with its pool_snapshot_data_impl: [p_ty] is
    the type of the object behind the pointer. *)
Record pool := Pool { p_comp : N; p_ty : ty; p_idx : list N; p_vals : list val }.
(** registry_snapshot.hpp 19–22; the timestamp is 8 bytes. *)
Record snap := Snap { s_time : N; s_ents : list N; s_pools : list pool }.

(** ** Writing *)
(** pool_snapshot_data.hpp 55–68 *)
Definition wr_data (p : pool) : list (list N) :=
  le_bytes 1 (N.of_nat (length (p_idx p)) mod 256) ::
  (le_bytes 1 <$> p_idx p) ++
  (if is_empty (p_ty p) then [] else concat (wr (p_ty p) <$> p_vals p)).
(** pool_snapshot.hpp 20–34 *)
Definition wr_pool (p : pool) : list (list N) :=
  le_bytes 2 (p_comp p) :: wr (TVec (TInt 1)) (VList (VInt <$> concat (wr_data p))).
(** registry_snapshot.hpp 35–40; a vector of pools is written like any vector. *)
Definition wr_snap (s : snap) : list (list N) :=
  le_bytes 8 (s_time s) ::
  wr (TVec (TInt 4)) (VList (VInt <$> s_ents s)) ++
  le_bytes 2 (clamp16 (length (s_pools s))) ::
  concat (wr_pool <$> take (size16 (length (s_pools s))) (s_pools s)).

(** ** Reading *)
Section rd.
Variable klt : val → val → bool.
(** The networked component types, in order. *)
Variable cts : list ty.

Definition int_of (v : val) : N := match v with VInt x => x | _ => 0%N end.
Definition rd_int (buf : list N) (n : nat) (old : N) (s : inp) : res (N * inp) :=
  '(o, s) ← rd_bytes buf n s; Ok (default old o, s).
(** pool_snapshot_data.hpp 70–86 into a new pool. *)
Definition rd_data (c : N) (t : ty) (buf : list N) (s : inp) : res (pool * inp) :=
  '(n, s) ← rd_int buf 1 0 s;
  '(idx, s) ← rd_each (rd_int buf 1) (replicate (N.to_nat n) 0%N) s;
  if is_empty t then Ok (Pool c t idx [], s) else
  '(vals, s) ← rd_each (rd klt buf t) (replicate (N.to_nat n) (dflt t)) s;
  Ok (Pool c t idx vals, s).
(** pool_snapshot.hpp 20–30: the failure of the inner archive is not looked at.
    create_make_pool_snapshot_data_function (36–47) uses visit_tuple, which indexes an
    array of functions with the component index, unchecked (tuple_util.hpp). *)
Definition rd_pool (buf : list N) (s : inp) : res (pool * inp) :=
  '(c, s) ← rd_int buf 2 0 s;
  '(d, s) ← rd klt buf (TVec (TInt 1)) (VList []) s;
  t ← opt_res (cts !! N.to_nat c);
  let data := int_of <$> list_of d in
  '(p, s') ← rd_data c t data (Inp 0 false (in_bad s));
  Ok (p, Inp (in_pos s) (in_failed s) (in_bad s')).
Definition rd_snap (buf : list N) (s : inp) : res (snap * inp) :=
  '(t, s) ← rd_int buf 8 0 s;
  '(e, s) ← rd klt buf (TVec (TInt 4)) (VList []) s;
  '(n, s) ← rd_size buf 0 s;
  '(ps, s) ← rd_each (λ _ s, rd_pool buf s) (replicate n (Pool 0 TEmpty [] [])) s;
  Ok (Snap t (int_of <$> list_of e) ps, s).
(** A received packet: a new archive over its bytes. *)
Definition receive (buf : list N) : res (snap * inp) := rd_snap buf (Inp 0 false false).

(** ** Collecting *)
Notation registry := (N → N → option val) (only parsing).
Definition find_index (e : N) (l : list N) : option nat := fst <$> list_find (eq e) l.
(** pool_snapshot_data_impl::insert_single, 134–154: index_type is uint8_t. *)
Definition insert_single (net : N → bool) (src : registry) (e : N) (ents : list N) (p : pool) : res (list N * pool) :=
  match src e (p_comp p) with
  | Some v =>
    _ ← assert_ (net e);
    let '(i, ents) := match find_index e ents with
                      | Some i => (i, ents)
                      | None => (length ents, ents ++ [e])
                      end in
    Ok (ents, Pool (p_comp p) (p_ty p) (p_idx p ++ [(N.of_nat i mod 256)%N])
                (if is_empty (p_ty p) then p_vals p else p_vals p ++ [v]))
  | None => AssertFail
  end.
(** get_pool (registry_snapshot.hpp 46–64) and snapshot_insert_entity (66–70). *)
Fixpoint insert_pools (net : N → bool) (src : registry) (t : ty) (e c : N) (ents : list N) (ps : list pool) : res (list N * list pool) :=
  match ps with
  | [] => '(ents, p) ← insert_single net src e ents (Pool c t [] []); Ok (ents, [p])
  | p :: ps => if (p_comp p =? c)%N then '(ents, p) ← insert_single net src e ents p; Ok (ents, p :: ps)
               else '(ents, ps) ← insert_pools net src t e c ents ps; Ok (ents, p :: ps)
  end.
(** Exporting the pairs [reqs] of entity and component. *)
Fixpoint collect (net : N → bool) (src : registry) (reqs : list (N * N)) (s : snap) : res snap :=
  match reqs with
  | [] => Ok s
  | (e, c) :: reqs =>
    t ← opt_res (cts !! N.to_nat c);
    '(ents, ps) ← insert_pools net src t e c (s_ents s) (s_pools s);
    collect net src reqs (Snap (s_time s) ents ps)
  end.
End rd.

(** ** Applying *)
Section apply.
Notation registry := (N → N → option val) (only parsing).
(** merge_component and map_child_entity, per component index. *)
Variable merge : N → val → val → val.
Variable mapc : N → val → val.
Variable emap : N → option N.
Variable valid : N → bool.

(** [Replace]: replace_into_registry, pool_snapshot_data.hpp 88–113.
    [Import]: import_components, client_snapshot_importer.hpp 27–62. *)
Inductive mode := Replace | Import.
Definition set_comp (r : registry) (e c : N) (v : val) : registry :=
  λ e' c', if (e' =? e)%N && (c' =? c)%N then Some v else r e' c'.
Definition apply_entry (m : mode) (ents : list N) (p : pool) (r : registry) (i : nat) : res registry :=
  ix ← opt_res (p_idx p !! i);
  e ← opt_res (ents !! N.to_nat ix);
  match emap e with
  | None => Ok r
  | Some l =>
    if valid l then
      if is_empty (p_ty p) then
        match m, r l (p_comp p) with
        | Import, None => Ok (set_comp r l (p_comp p) VUnit)
        | _, _ => Ok r
        end
      else
        match m, r l (p_comp p) with
        | _, Some cur => v ← opt_res (p_vals p !! i); Ok (set_comp r l (p_comp p) (merge (p_comp p) cur (mapc (p_comp p) v)))
        | Import, None => v ← opt_res (p_vals p !! i); Ok (set_comp r l (p_comp p) (mapc (p_comp p) v))
        | Replace, None => Ok r
        end
    else Ok r
  end.
Fixpoint apply_entries (m : mode) (ents : list N) (p : pool) (is : list nat) (r : registry) : res registry :=
  match is with [] => Ok r | i :: is => r' ← apply_entry m ents p r i; apply_entries m ents p is r' end.
Definition apply_pool (m : mode) (ents : list N) (p : pool) (r : registry) : res registry :=
  match m with
  | Replace =>
    if is_empty (p_ty p) then Ok r else
    _ ← assert_ (length (p_idx p) =? length (p_vals p));
    apply_entries m ents p (seq 0 (length (p_idx p))) r
  | Import => apply_entries m ents p (seq 0 (length (p_idx p))) r
  end.
(** snap_to_pool_snapshot.cpp 20–34, extrapolation_worker.cpp 369–371, import. *)
Fixpoint apply_pools (m : mode) (ents : list N) (ps : list pool) (r : registry) : res registry :=
  match ps with [] => Ok r | p :: ps => r' ← apply_pool m ents p r; apply_pools m ents ps r' end.
Definition apply_snap (m : mode) (s : snap) (r : registry) : res registry := apply_pools m (s_ents s) (s_pools s) r.
End apply.

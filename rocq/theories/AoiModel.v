(** Interest management: what a client is told about the entities near it.
    src/edyn/networking/sys/update_aabbs_of_interest.cpp and
    process_aabbs_of_interest of src/edyn/networking/sys/server_side.cpp.
    Which entities are inside the area is an input ([contained]); snapshots and the
    client's entity map are not part of this model. *)
From Verif Require Export Outcome.
Local Open Scope nat_scope.

(** aabb_of_interest.hpp 17–34.  [oi_count] is the map asset_entity_count of unsigned
    numbers; an absent key is 0. *)
Record aoi := Aoi {
  oi_ents : list nat;
  oi_entered : list nat;
  oi_exited : list nat;
  oi_count : nat → N
}.
Definition aoi_init : aoi := Aoi [] [] [] (λ _, 0%N).

(** update_aabbs_of_interest_seq 62–79 and process_aabb_of_interest_result 145–162: the
    lists are appended to. *)
Definition aoi_update (contained : list nat) (s : aoi) : aoi :=
  Aoi contained
    (oi_entered s ++ filter (λ e, e ∉ oi_ents s) contained)
    (oi_exited s ++ filter (λ e, e ∉ contained) (oi_ents s))
    (oi_count s).
(** The destroy packet of a client, server_side.cpp 191–194. *)
Definition aoi_remove (e : nat) (s : aoi) : aoi :=
  Aoi (filter (λ x, x ≠ e) (oi_ents s)) (oi_entered s) (oi_exited s) (oi_count s).

(** Packets to the client. *)
Inductive oi_packet :=
| ExitedAssets (l : list nat)      (* packet::entity_exited *)
| Destroyed (l : list nat)         (* packet::destroy_entity *)
| EnteredAssets (l : list nat)     (* packet::entity_entered *)
| Created (l : list nat).          (* packet::create_entity *)

Definition two32 : N := 4294967296.
Definition dec32 (n : N) : N := ((n + 4294967295) mod two32)%N.
Definition inc32 (n : N) : N := ((n + 1) mod two32)%N.
Definition upd_count (a : nat) (f : N → N) (c : nat → N) : nat → N := λ b, if b =? a then f (c a) else c b.
Definition add_set (a : nat) (l : list nat) : list nat := if decide (a ∈ l) then l else l ++ [a].

Section process.
(** The asset an entity belongs to (component asset_entry) when processing. *)
Variable asset : nat → option nat.
(** The loop of process_aabb_of_interest_entities_exited, 368–387. *)
Fixpoint exited_loop (l : list nat) (c : nat → N) (assets ents : list nat) : (nat → N) * list nat * list nat :=
  match l with
  | [] => (c, assets, ents)
  | e :: l =>
    match asset e with
    | Some a => exited_loop l (upd_count a dec32 c) (add_set a assets) ents
    | None => exited_loop l c assets (ents ++ [e])
    end
  end.
Definition nonempty (l : list nat) (p : oi_packet) : list oi_packet := match l with [] => [] | _ => [p] end.
(** 348–412 *)
Definition process_exited (s : aoi) : aoi * list oi_packet :=
  match oi_exited s with
  | [] => (s, [])
  | _ =>
    let '(c, assets, ents) := exited_loop (oi_exited s) (oi_count s) [] [] in
    let assets := filter (λ a, c a = 0%N) assets in
    (Aoi (oi_ents s) (oi_entered s) [] c, nonempty assets (ExitedAssets assets) ++ nonempty ents (Destroyed ents))
  end.
(** The loop of process_aabb_of_interest_entities_entered, 424–440; pushing an entity
    that already is in a sparse_set is not allowed. *)
Fixpoint entered_loop (l : list nat) (c : nat → N) (assets ents : list nat) : res ((nat → N) * list nat * list nat) :=
  match l with
  | [] => Ok (c, assets, ents)
  | e :: l =>
    match asset e with
    | Some a => entered_loop l (upd_count a inc32 c) (add_set a assets) ents
    | None => _ ← require_ (bool_decide (e ∉ ents)); entered_loop l c assets (ents ++ [e])
    end
  end.
(** 414–491 *)
Definition process_entered (s : aoi) : res (aoi * list oi_packet) :=
  match oi_entered s with
  | [] => Ok (s, [])
  | _ =>
    '(c, assets, ents) ← entered_loop (oi_entered s) (oi_count s) [] [];
    Ok (Aoi (oi_ents s) [] (oi_exited s) c, nonempty assets (EnteredAssets assets) ++ nonempty ents (Created ents))
  end.
(** process_aabbs_of_interest, 547–551, for one client. *)
Definition process (s : aoi) : res (aoi * list oi_packet) :=
  let '(s, ps) := process_exited s in
  '(s, qs) ← process_entered s;
  Ok (s, ps ++ qs).
End process.

(** What happens between two calls of process_aabbs_of_interest: the client destroys some
    of its entities, then the area is evaluated — once per update in sequential mode,
    any number of times in asynchronous mode, where results arrive as messages. *)
Record round := Round { r_asset : nat → option nat; r_removed : list nat; r_updates : list (list nat) }.
Definition do_round (r : round) (s : aoi) : res (aoi * list oi_packet) :=
  let s := foldl (λ s e, aoi_remove e s) s (r_removed r) in
  let s := foldl (λ s c, aoi_update c s) s (r_updates r) in
  process (r_asset r) s.

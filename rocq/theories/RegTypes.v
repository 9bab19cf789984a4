(** Data exchanged by the replication code: component values as the member
    list seen through entt::meta, and the recorded operations. *)
From stdpp Require Export prelude list gmap.

(** One data member of a component. Only what map_child_entity.hpp
    distinguishes: plain data, an entity, a fixed-size array of entities
    ([std::array]), a resizable sequence of entities ([std::vector]), an
    associative container with entities as mapped values. [None] is entt::null.
    Sequences and maps of structs that contain entities (recursive case,
    map_child_entity.hpp:41-47, 53-58) and nested structs are not modelled;
    edyn registers none (src/edyn/edyn.cpp:37-71). *)
Inductive mem :=
| MRaw (n : nat)
| MEnt (o : option nat)
| MArr (l : list (option nat))
| MSeq (l : list (option nat))
| MAssoc (m : gmap nat (option nat)).
(** A component: its members. An empty type has none. *)
Notation value := (list mem) (only parsing).

(** registry_operation.hpp:23-30 with the payload of each operation class;
    component types are numbers. *)
Inductive opn :=
| OCreate (e : nat)
| ODestroy (e : nat)
| OMapEntity (e l : nat)
| OEmplace (t e : nat) (v : value)
| OReplace (t e : nat) (v : value)
| ORemove (t e : nat).

(** What user code does on the source side, each with the signals it fires;
    the observer is active (set_active(true)). *)
Inductive act :=
| ACreate | ADestroy (e : nat)
| AEmplace (t e : nat) (v : value) | APatch (t e : nat) (v : value) | ARemove (t e : nat)
| AObserve (e : nat) | AUnobserve (e : nat)
| AFlush.

(** Abstract undirected multigraph, independent of the entity_graph model. *)
From Verif Require Import Outcome.

(** A node has a payload and a flag telling whether it is non-connecting; an
    edge has a payload and two end points. *)
Record mgraph := MGraph {
  mg_nodes : gmap nat (nat * bool);
  mg_edges : gmap nat (nat * nat * nat) }.

Definition mg_empty : mgraph := MGraph ∅ ∅.

(** Edge [k] joins [i] and [j] (in either order). *)
Definition joins (m : mgraph) (k i j : nat) : Prop :=
  ∃ x, mg_edges m !! k = Some (x, i, j) ∨ mg_edges m !! k = Some (x, j, i).
Definition adjacent (m : mgraph) (i j : nat) : Prop := ∃ k, joins m k i j.
Definition incident (m : mgraph) (k i : nat) : Prop := ∃ j, joins m k i j.

Definition live_node (m : mgraph) (i : nat) : Prop := is_Some (mg_nodes m !! i).
Definition connecting (m : mgraph) (i : nat) : Prop :=
  ∃ x, mg_nodes m !! i = Some (x, false).
Definition non_connecting (m : mgraph) (i : nat) : Prop :=
  ∃ x, mg_nodes m !! i = Some (x, true).

(** [i] and [j] are joined by a path all of whose nodes are connecting. *)
Inductive cpath (m : mgraph) (i : nat) : nat → Prop :=
| cp_refl : connecting m i → cpath m i i
| cp_step j k : cpath m i j → adjacent m j k → connecting m k → cpath m i k.

(** Mutating operations. *)
Inductive mop :=
| MInsertNode (x : nat) (nc : bool)
| MRemoveNode (i : nat)
| MInsertEdge (x i j : nat)
| MRemoveEdge (k : nat)
| MRemoveAllEdges (i : nat)
| MSetConnecting (i : nat) (c : bool)
| MClear.

(** Documented preconditions. *)
Definition legal (m : mgraph) (o : mop) : Prop :=
  match o with
  | MInsertNode _ _ => True
  | MRemoveNode i => live_node m i ∧ (∀ k, ¬ incident m k i)
  | MInsertEdge _ i j => live_node m i ∧ live_node m j ∧ (i = j → ¬ adjacent m i i)
  | MRemoveEdge k => is_Some (mg_edges m !! k)
  | MRemoveAllEdges i => live_node m i
  | MSetConnecting i _ => live_node m i
  | MClear => True
  end.

(** Effect on the abstract graph; [r] is the index the call returned. *)
Definition mnext (m : mgraph) (o : mop) (r : option nat) : mgraph :=
  match o, r with
  | MInsertNode x nc, Some i => MGraph (<[i := (x, nc)]> (mg_nodes m)) (mg_edges m)
  | MInsertEdge x i j, Some k => MGraph (mg_nodes m) (<[k := (x, i, j)]> (mg_edges m))
  | MRemoveNode i, _ => MGraph (delete i (mg_nodes m)) (mg_edges m)
  | MRemoveEdge k, _ => MGraph (mg_nodes m) (delete k (mg_edges m))
  | MRemoveAllEdges i, _ =>
    MGraph (mg_nodes m) (filter (λ ke, ke.2.1.2 ≠ i ∧ ke.2.2 ≠ i) (mg_edges m))
  | MSetConnecting i c, _ =>
    MGraph (alter (λ v, (v.1, negb c)) i (mg_nodes m)) (mg_edges m)
  | MClear, _ => mg_empty
  | _, None => m
  end.

(** The index returned by an insertion must not be in use. *)
Definition fresh_result (m : mgraph) (o : mop) (r : option nat) : Prop :=
  match o with
  | MInsertNode _ _ => ∃ i, r = Some i ∧ mg_nodes m !! i = None
  | MInsertEdge _ _ _ => ∃ k, r = Some k ∧ mg_edges m !! k = None
  | _ => r = None
  end.

(** [k] is reached from [s] by a path of edges which leaves only connecting
    nodes and, after [s], enters only nodes satisfying [ok]. *)
Inductive rpath (m : mgraph) (ok : nat → Prop) (s : nat) : nat → Prop :=
| rp_refl : rpath m ok s s
| rp_step j k : rpath m ok s j → connecting m j → adjacent m j k → ok k → rpath m ok s k.

(** The decomposition of the graph restricted to [ok] nodes, given as a list of
    (node list, edge list) pairs. [start] tells which connecting nodes must be covered. *)
Record is_decomposition (m : mgraph) (ok : nat → Prop) (start : nat → Prop)
    (cs : list (list nat * list nat)) : Prop := {
  (* nothing is listed twice in a component *)
  dc_nodup : ∀ c ns es, cs !! c = Some (ns, es) → NoDup ns ∧ NoDup es;
  (* every component is what is reached from one of its connecting nodes *)
  dc_nodes : ∀ c ns es, cs !! c = Some (ns, es) →
    ∃ s, start s ∧ connecting m s ∧ ok s ∧ ∀ i, i ∈ ns ↔ rpath m ok s i;
  (* the edges of a component are those touching a connecting node of it *)
  dc_edges : ∀ c ns es, cs !! c = Some (ns, es) →
    ∀ k, k ∈ es ↔ ∃ n, n ∈ ns ∧ connecting m n ∧ incident m k n;
  (* every start node is covered *)
  dc_cover : ∀ s, start s → connecting m s → ok s → ∃ c ns es, cs !! c = Some (ns, es) ∧ s ∈ ns;
  (* only non-connecting nodes are shared *)
  dc_disj : ∀ c c' ns es ns' es' i, cs !! c = Some (ns, es) → cs !! c' = Some (ns', es') →
    i ∈ ns → i ∈ ns' → connecting m i → c = c'
}.

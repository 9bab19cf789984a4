(** What a client may touch, in terms of an abstract multigraph whose nodes and
    edges are entities. *)
From Verif Require Import Outcome GraphModel GraphSpec GraphHist MapModel OwnModel.

(** The graph of the world is [m]; graph_node and graph_edge components and the
    graph agree; an entity is not both a node and an edge; whatever has a
    component is alive. *)
Record wok (w : world) (m : mgraph) : Prop := {
  wok_hist : ∃ cleared, hist cleared (w_graph w) m;
  wok_node : ∀ e i, w_node w !! e = Some i ↔ ∃ nc, mg_nodes m !! i = Some (e, nc);
  wok_edge : ∀ e k, w_edge w !! e = Some k ↔ ∃ i j, mg_edges m !! k = Some (e, i, j);
  wok_disj : ∀ e i k, w_node w !! e = Some i → w_edge w !! e = Some k → False;
  wok_node_valid : ∀ e i, w_node w !! e = Some i → e ∈ w_valid w;
  wok_edge_valid : ∀ e k, w_edge w !! e = Some k → e ∈ w_valid w;
  wok_comp_valid : ∀ t e, is_Some (w_comps w !! (t, e)) → e ∈ w_valid w }.

Definition is_node (m : mgraph) (i e : nat) : Prop := ∃ nc, mg_nodes m !! i = Some (e, nc).
Definition is_edge (m : mgraph) (k e : nat) : Prop := ∃ i j, mg_edges m !! k = Some (e, i, j).
(** [e] is an edge (a constraint, a contact manifold) with the body [b] at one end *)
Definition attached (m : mgraph) (e b : nat) : Prop :=
  ∃ k i, is_edge m k e ∧ is_node m i b ∧ incident m k i.

Definition owns (w : world) (c e : nat) : Prop := ∃ rest, w_comps w !! (TOwner, e) = Some (Some c :: rest).

(** The node standing for an entity: the first body of an edge, a body itself,
    or the body a child entity belongs to. *)
Inductive stands_for (w : world) (m : mgraph) (e : nat) : nat → Prop :=
| sf_edge k i j : mg_edges m !! k = Some (e, i, j) → stands_for w m e i
| sf_node i : is_node m i e → stands_for w m e i
| sf_child p rest i : (∀ k, ¬ is_edge m k e) → (∀ i, ¬ is_node m i e) →
    w_comps w !! (TChild, e) = Some (Some p :: rest) → is_node m i p → stands_for w m e i.

(** A body of client [c] is reached from [e] through connecting bodies. *)
Definition reaches_client (w : world) (m : mgraph) (e c : nat) : Prop :=
  ∃ s i b, stands_for w m e s ∧ rpath m (λ _, True) s i ∧ is_node m i b ∧ owns w c b.
Definition only_client (w : world) (m : mgraph) (e c : nat) : Prop :=
  reaches_client w m e c ∧ ∀ c', reaches_client w m e c' → c' = c.

(** What a snapshot of client [c] may set. *)
Definition allowed (w : world) (m : mgraph) (c : nat) (t : ctype) (e : nat) : Prop :=
  e ∈ w_valid w ∧
  match t with
  | TInput _ | THistory => owns w c e
  | _ => only_client w m e c
  end.

(** An entity a destroy packet naming [rs] may remove. *)
Definition named_own (w : world) (cl : client) (c : nat) (rs : list nat) (e : nat) : Prop :=
  e ∈ w_valid w ∧ owns w c e ∧ ∃ r, r ∈ rs ∧ em_map (cl_map cl) !! r = Some e.

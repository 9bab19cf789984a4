(** What a user sees of islands: bodies, edges between them, and which bodies
    are connected.  Independent of the island manager. *)
From Coq Require Import ZArith.
From Verif Require Import Outcome IslModel.

(** The bodies, telling which are procedural (dynamic), and the edges. *)
Record sgraph := SG { sg_nodes : gmap nat bool; sg_edges : gmap nat (nat * nat) }.
Definition sg_empty : sgraph := SG ∅ ∅.
Definition procedural (s : sgraph) (x : nat) : Prop := sg_nodes s !! x = Some true.
Definition anchored (s : sgraph) (x : nat) : Prop := sg_nodes s !! x = Some false.
Definition is_edge (s : sgraph) (k : nat) : Prop := is_Some (sg_edges s !! k).
(** [x] is an end of the edge [k] *)
Definition ends (s : sgraph) (k x : nat) : Prop := ∃ y, sg_edges s !! k = Some (x, y) ∨ sg_edges s !! k = Some (y, x).
Definition linked (s : sgraph) (x y : nat) : Prop := ∃ k, sg_edges s !! k = Some (x, y) ∨ sg_edges s !! k = Some (y, x).
(** [x] and [y] are joined by a chain of procedural bodies *)
Inductive pconn (s : sgraph) (x : nat) : nat → Prop :=
| pc_refl : procedural s x → pconn s x x
| pc_step y z : pconn s x y → linked s y z → procedural s z → pconn s x z.

(** Preconditions of the calls *)
Definition ilegal (s : sgraph) (o : iop) : Prop :=
  match o with
  | NewNode _ _ | SetFast _ | Update _ => True
  | NewEdge a b => is_Some (sg_nodes s !! a) ∧ is_Some (sg_nodes s !! b) ∧ a ≠ b
  | DelNode x => is_Some (sg_nodes s !! x)
  | DelEdge k => is_edge s k
  end.
(** Effect on the bodies and edges; [r] is the entity the call returned. *)
Definition del_body (s : sgraph) (x : nat) : sgraph :=
  SG (delete x (sg_nodes s)) (filter (λ p, p.2.1 ≠ x ∧ p.2.2 ≠ x) (sg_edges s)).
Definition snext (s : sgraph) (o : iop) (r : nat) : sgraph :=
  match o with
  | NewNode p _ => SG (<[r := p]> (sg_nodes s)) (sg_edges s)
  | NewEdge a b => SG (sg_nodes s) (<[r := (a, b)]> (sg_edges s))
  | DelNode x => del_body s x
  | DelEdge k => SG (sg_nodes s) (delete k (sg_edges s))
  | SetFast _ | Update _ => s
  end.

(** What happened since the last update, and whether an earlier update had to
    deal with both new edges and destroyed things. *)
Record frame := Frame { fr_new : bool; fr_del : bool; fr_mixed : bool }.
Definition fnext (f : frame) (o : iop) : frame :=
  match o with
  | NewEdge _ _ => Frame true (fr_del f) (fr_mixed f)
  | DelNode _ | DelEdge _ => Frame (fr_new f) true (fr_mixed f)
  | Update _ => Frame false false (fr_mixed f || (fr_new f && fr_del f))
  | _ => f
  end.

(** What an update saw: its clock, the fast bodies, the bodies that may not
    sleep, and the members of the islands. *)
Record entry := Entry { en_time : Z; en_fast : gset nat; en_nosleep : gset nat; en_isl : gmap nat (list nat) }.
Definition lnext (log : list entry) (w w' : world) (o : iop) : list entry :=
  match o with Update _ => Entry (w_last w) (w_fast w) (w_nosleep w) (il_nodes <$> w_isl w') :: log | _ => log end.

(** The update saw no fast body in [h] and none that may not sleep. *)
Definition calm_in (e : entry) (h : nat) : Prop :=
  ∃ ns, en_isl e !! h = Some ns ∧ ∀ x, x ∈ ns → x ∉ en_fast e ∧ x ∉ en_nosleep e.
(** All updates since the one at time [t0], and this one, saw [h] calm.  The
    log holds the newest update first. *)
Definition calm_since (log : list entry) (h : nat) (t0 : Z) : Prop :=
  ∃ recent older e0, log = recent ++ older ∧ last recent = Some e0 ∧ en_time e0 = t0 ∧ ∀ e, e ∈ recent → calm_in e h.

(** Histories of legal calls which did not fail *)
Inductive ihist (tts t0 : Z) : frame → list entry → sgraph → world → Prop :=
| ih_init : ihist tts t0 (Frame false false false) [] sg_empty (w_empty t0)
| ih_step f log s w o w' r :
    ihist tts t0 f log s w → ilegal s o → istep tts w o = Ok (w', r) →
    ihist tts t0 (fnext f o) (lnext log w w' o) (snext s o r) w'.

(** The island of a body or an edge; the bodies and edges of an island. *)
Definition in_island (w : world) (x h : nat) : Prop := w_res w !! x = Some (Some h).
Definition member (w : world) (h x : nat) : Prop := ∃ il, w_isl w !! h = Some il ∧ x ∈ il_nodes il.
Definition emember (w : world) (h k : nat) : Prop := ∃ il, w_isl w !! h = Some il ∧ k ∈ il_edges il.
Definition is_island (w : world) (h : nat) : Prop := is_Some (w_isl w !! h).

(** Legal calls between two updates *)
Inductive quiet (tts : Z) (s : sgraph) (w : world) : sgraph → world → Prop :=
| qu_refl : quiet tts s w s w
| qu_step s' w' o w'' r : quiet tts s w s' w' → ilegal s' o → (∀ t, o ≠ Update t) → istep tts w' o = Ok (w'', r) →
    quiet tts s w (snext s' o r) w''.
Definition together (w : world) (x y : nat) : Prop := ∃ h, in_island w x h ∧ in_island w y h.

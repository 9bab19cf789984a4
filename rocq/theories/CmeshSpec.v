(** What users of a convex mesh rely on. *)
From Verif Require Import Outcome BoxModel GeoModel TmeshModel TmeshSpec CmeshModel.
From Coq Require Import Reals.
Local Open Scope nat_scope.

(** Vertex number [j] of a face, which goes around *)
Definition corner (m : cmesh) (f j : nat) (v : nat) : Prop :=
  ∃ first count, c_faces m !! f = Some (first, count) ∧ c_indices m !! (first + j mod count) = Some v.
(** The mesh has this side, the j-th of face f. *)
Definition is_side (m : cmesh) (f j i0 i1 : nat) : Prop :=
  ∃ first count, c_faces m !! f = Some (first, count) ∧ j < count ∧ corner m f j i0 ∧ corner m f (j + 1) i1.
Global Instance same_ends_dec p q : Decision (same_ends p q).
Proof. unfold same_ends. apply _. Defined.
(** Faces of the sides with given ends, in order *)
Definition faces_with (l : list side) (q : nat * nat) : list nat :=
  omap (λ x, if decide (same_ends q (x.1.2, x.2)) then Some x.1.1 else None) l.
(** A mesh without calculated properties *)
Definition fresh (vs : list v3) (ix : list nat) (faces : list (nat * nat)) : cmesh :=
  CMesh vs ix faces [] [] [] [] [] [] [].
(** What lies from one start to the next *)
Definition slice {A} (l : list A) (i j : nat) : list A := take (j - i) (drop i l).

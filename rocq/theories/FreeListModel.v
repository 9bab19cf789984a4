(** Model of include/edyn/core/free_list.hpp (lines 10-90 of the file).

    Every element type used with [free_list] has a [next] member which the free
    list threads its free chain through; live elements may use [next] for
    their own purposes (entity_graph does).  An element is therefore a pair of
    the remaining members and [next].  [null_index] is [None].
    Simplification: indices are unbounded ([IndexType] never overflows). *)
From Verif Require Import Outcome.

Record free_list (T : Type) := FL {
  fl_elem : list (T * option nat);   (* m_elem, free_list.hpp:87 *)
  fl_size : Z;                       (* m_size, free_list.hpp:88 *)
  fl_free : option nat               (* m_free_list, free_list.hpp:89 *)
}.
Arguments FL {_} _ _ _.
Arguments fl_elem {_} _.
Arguments fl_size {_} _.
Arguments fl_free {_} _.

Section free_list.
Context {T : Type} (dflt : T).

Definition allocation_size : nat := 16.  (* free_list.hpp:12 *)

(** A default constructed list, free_list.hpp:87-89. *)
Definition fl_empty : free_list T := FL [] 0 None.

(** free_list.hpp:63-70, [operator[]] with its assertion. *)
Definition fl_get (l : free_list T) (i : option nat) : res (T * option nat) :=
  match i with
  | None => AssertFail
  | Some i =>
    match fl_elem l !! i with
    | Some e => Ok e
    | None => AssertFail
    end
  end.

(** Assignment through [operator[]]. *)
Definition fl_set (l : free_list T) (i : option nat) (e : T * option nat)
  : res (free_list T) :=
  match i with
  | None => AssertFail
  | Some i =>
    if decide (i < length (fl_elem l))
    then Ok (FL (<[i := e]> (fl_elem l)) (fl_size l) (fl_free l))
    else AssertFail
  end.

(** free_list.hpp:17-27: the fresh slots [base .. base+n-1], each default
    constructed and linked to its successor, the last one to null. *)
Definition fresh_slots (base n : nat) : list (T * option nat) :=
  imap (λ k x, (x, if decide (S k = n) then None else Some (S (base + k))))
       (replicate n dflt).

(** free_list.hpp:15-37, [insert]. *)
Definition fl_insert (l : free_list T) (v : T) (nx : option nat)
  : res (free_list T * nat) :=
  let l :=
    match fl_free l with
    | None => FL (fl_elem l ++ fresh_slots (length (fl_elem l)) allocation_size)
                 (fl_size l) (Some (length (fl_elem l)))
    | Some _ => l
    end in
  match fl_free l with
  | None => AssertFail
  | Some index =>
    match fl_elem l !! index with
    | None => AssertFail                    (* free_list.hpp:30 *)
    | Some e =>
      Ok (FL (<[index := (v, nx)]> (fl_elem l)) (fl_size l + 1)%Z e.2, index)
    end
  end.

(** free_list.hpp:39-45, [remove].  The code does not check liveness. *)
Definition fl_remove (l : free_list T) (i : nat) : res (free_list T) :=
  if decide (i < length (fl_elem l))
  then Ok (FL (<[i := (dflt, fl_free l)]> (fl_elem l)) (fl_size l - 1)%Z (Some i))
  else AssertFail.

(** free_list.hpp:47-61, [clear]: relinks every slot, keeps the other members. *)
Definition fl_clear (l : free_list T) : free_list T :=
  match fl_elem l with
  | [] => FL [] 0 None
  | _ =>
    FL (imap (λ k e, (e.1, if decide (S k = length (fl_elem l)) then None else Some (S k)))
             (fl_elem l))
       0 (Some 0)
  end.

(** free_list.hpp:73-75 and 82-84. *)
Definition fl_count (l : free_list T) : Z := fl_size l.
Definition fl_range (l : free_list T) : nat := length (fl_elem l).
End free_list.

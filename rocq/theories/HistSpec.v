(** What the histories and the packet queue should do, in terms of filters and
    sorted permutations, independent of the model. *)
From Verif Require Import HistModel.
Local Open Scope Z_scope.

(** Sorted by time. *)
Definition by_time (l : list entry) : Prop := StronglySorted (λ a b, e_time a ≤ e_time b) l.
Definition strictly_by_time (l : list entry) : Prop := StronglySorted (λ a b, e_time a < e_time b) l.
(** A possible result of sorting. *)
Definition sorts (l l' : list entry) : Prop := l' ≡ₚ l ∧ by_time l'.
(** The newest time among the accepted entries, zero if there is none. *)
Definition newest (l : list entry) : Z := foldr (λ e t, Z.max (e_time e) t) 0 l.
(** Entries of [l] newer than everything accepted so far. *)
Definition fresh (acc l : list entry) : list entry := filter (λ e, newest acc < e_time e) l.

(** A history: everything ever accepted and what is still present. *)
Inductive hop := HMerge (l : list entry) | HErase (t : Z).
Definition hspec (s : list entry * list entry) (o : hop) : list entry * list entry :=
  match o with
  | HMerge l => (s.1 ++ fresh s.1 l, s.2 ++ fresh s.1 l)
  | HErase t => (s.1, filter (λ e, t ≤ e_time e) s.2)
  end.
(** Merged lists are non-empty and sorted. *)
Definition hop_ok (o : hop) : Prop :=
  match o with HMerge l => l ≠ [] ∧ by_time l | HErase _ => True end.

(** Running the model. *)
Definition hstep (h : hist) (o : hop) : res hist :=
  match o with HMerge l => h_merge h l | HErase t => Ok (h_erase_until t h) end.
Fixpoint hrun (h : hist) (os : list hop) : res hist :=
  match os with [] => Ok h | o :: os' => hstep h o ≫= λ h', hrun h' os' end.

(** All entries ever merged for entity [e] that were new at that time. *)
Fixpoint accepted (e : nat) (acc : list entry) (evs : list devent) : list entry :=
  match evs with
  | [] => acc
  | DMerge e' l :: evs' =>
    accepted e (if decide (e' = e) then acc ++ fresh acc l else acc) evs'
  | DDispatch _ :: evs' => accepted e acc evs'
  end.
(** The entries of entity [e] in a log. *)
Definition of_entity (e : nat) (log : list (nat * entry)) : list entry :=
  snd <$> filter (λ x, x.1 = e) log.
Definition devent_ok (ents : list nat) (ev : devent) : Prop :=
  match ev with DMerge e l => e ∈ ents ∧ l ≠ [] ∧ by_time l | DDispatch _ => True end.

(** Packets that arrived. *)
Fixpoint arrived (evs : list qevent) : list tpacket :=
  match evs with
  | [] => []
  | QArrive p :: evs' => p :: arrived evs'
  | QUpdate _ :: evs' => arrived evs'
  end.
Definition q_sorted (q : list tpacket) : Prop := StronglySorted (λ a b, p_time a ≤ p_time b) q.

(** [x] lists the packets of [l] by time, packets with equal times in the order of [l]. *)
Definition ordered_as (l x : list tpacket) : Prop :=
  q_sorted x ∧ ∀ t, filter (λ p, p_time p = t) x = filter (λ p, p_time p = t) l.
(** What an observer sees: [pend] are the packets that arrived and were not
    processed, in order of arrival; each update processes all that are due. *)
Inductive qsem : list tpacket → list qevent → list (list tpacket) → list tpacket → Prop :=
| qsem_nil pend : qsem pend [] [] pend
| qsem_arrive pend p evs xs fin :
    qsem (pend ++ [p]) evs xs fin → qsem pend (QArrive p :: evs) ([] :: xs) fin
| qsem_update pend due x evs xs fin :
    ordered_as (filter (λ p, p_time p ≤ due) pend) x →
    qsem (filter (λ p, due < p_time p) pend) evs xs fin →
    qsem pend (QUpdate due :: evs) (x :: xs) fin.
(** No packet arrives late: with a time at or before one that was already due. *)
Fixpoint in_time (due0 : Z) (evs : list qevent) : Prop :=
  match evs with
  | [] => True
  | QArrive p :: evs' => due0 < p_time p ∧ in_time due0 evs'
  | QUpdate due :: evs' => due0 ≤ due ∧ in_time due evs'
  end.

(** A stream [A] of actions of which windows [(s, e)] (entries s, s+1, ..., e-1)
    are received, interleaved with erasures. *)
Definition window_op (A : list entry) (w : nat * nat + Z) : hop :=
  match w with
  | inl (s, e) => HMerge (take (e - s) (drop s A))
  | inr t => HErase t
  end.
(** Every window starts no later than the first action not received yet. *)
Fixpoint covered (A : list entry) (m : nat) (ws : list (nat * nat + Z)) : Prop :=
  match ws with
  | [] => True
  | inl (s, e) :: ws' => (s ≤ m)%nat ∧ (s < e)%nat ∧ (e ≤ length A)%nat ∧ covered A (Nat.max m e) ws'
  | inr _ :: ws' => covered A m ws'
  end.
Fixpoint furthest (m : nat) (ws : list (nat * nat + Z)) : nat :=
  match ws with
  | [] => m
  | inl (_, e) :: ws' => furthest (Nat.max m e) ws'
  | inr _ :: ws' => furthest m ws'
  end.

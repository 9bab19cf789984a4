(** When a component should be pending. *)
From Verif Require Import ModModel.
Local Open Scope Z_scope.

(** Time counted since the last modification of [i]; [acc] is what is known before. *)
Fixpoint since (i : nat) (acc : option Z) (os : list mop) : option Z :=
  match os with
  | [] => acc
  | Bump j :: os' => since i (if decide (j = i) then Some 0 else acc) os'
  | Decay ms :: os' => since i ((λ s, s + ms) <$> acc) os'
  end.
Definition pending (os : list mop) (i : nat) : Prop := ∃ s, since i None os = Some s ∧ s ≤ 400.
Definition mop_ok (o : mop) : Prop := match o with Bump _ => True | Decay ms => 0 ≤ ms end.
Definition bumps (os : list mop) (i : nat) : Prop := Bump i ∈ os.

(** Times of the updates do not go back. *)
Fixpoint times_ok (t : Z) (os : list xop) : Prop :=
  match os with
  | [] => True
  | Modify _ :: os' => times_ok t os'
  | Update u :: os' => t ≤ u ∧ times_ok u os'
  end.
(** Time of the last update. *)
Fixpoint last_update (t : Z) (os : list xop) : Z :=
  match os with [] => t | Modify _ :: os' => last_update t os' | Update u :: os' => last_update u os' end.
Fixpoint num_updates (os : list xop) : nat :=
  match os with [] => 0 | Modify _ :: os' => num_updates os' | Update _ :: os' => S (num_updates os') end.

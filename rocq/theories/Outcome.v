(** Outcomes of modelled C++ code.

    [EDYN_ASSERT] is [assert] (include/edyn/config/config.h), active unless
    [EDYN_DISABLE_ASSERT] or [NDEBUG] is defined.  A modelled function returns
    - [Ok a]        on normal return,
    - [AssertFail]  when an [EDYN_ASSERT] on the path fails,
    - [UB]          when the code would have undefined behaviour (out of range
                    access, null dereference, precondition of a library call),
    - [NoFuel]      when the explicit loop fuel is exhausted, i.e. the modelled
                    loop did not terminate within the given number of steps. *)
From stdpp Require Export prelude list gmap.

Inductive res (A : Type) : Type :=
| Ok (a : A)
| AssertFail
| UB
| NoFuel.
Arguments Ok {_} _.
Arguments AssertFail {_}.
Arguments UB {_}.
Arguments NoFuel {_}.

Global Instance res_ret : MRet res := @Ok.
Global Instance res_bind : MBind res := λ A B f m,
  match m with
  | Ok a => f a
  | AssertFail => AssertFail
  | UB => UB
  | NoFuel => NoFuel
  end.

(** [EDYN_ASSERT(b)] followed by the rest of the function. *)
Definition assert_ (b : bool) : res unit := if b then Ok tt else AssertFail.

(** A C++ precondition whose violation is undefined behaviour. *)
Definition require_ (b : bool) : res unit := if b then Ok tt else UB.

Lemma bind_ok {A B} (m : res A) (f : A → res B) b :
  mbind f m = Ok b ↔ ∃ a, m = Ok a ∧ f a = Ok b.
Proof.
  destruct m; simpl; split; try (intros (? & ? & ?)); try discriminate; try congruence.
  intros. eauto.
Qed.

Definition is_ok {A} (m : res A) : bool :=
  match m with Ok _ => true | _ => false end.

Definition opt_res {A} (o : option A) : res A :=
  match o with Some a => Ok a | None => UB end.

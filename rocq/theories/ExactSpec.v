(** Specifications that are exact where the documented contract is not met: the count reported by
    [bulk_consume_full_slice], and [slurp] on a producer behind [Limit]. *)
From Coq Require Import Bool List Arith.
From Verif Require Import Prelude Traits Contracts.
Import ListNotations.
Set Implicit Arguments.

(** [bulk_accepts C s xs n s']: successive [bulk_consume] calls, each offering everything of [xs] that is not
    yet reported as consumed, succeed and report [n] items altogether. *)
Inductive bulk_accepts {S T F E} (C : bulk_consumer S T F E) : S -> list T -> nat -> S -> Prop :=
| bulk_accepts_nil : forall s xs, bulk_accepts C s xs 0 s
| bulk_accepts_call : forall s xs m s1 n s', xs <> [] ->
    c_bulk_consume C xs s = Ret (s1, Ok m) -> bulk_accepts C s1 (skipn m xs) n s' ->
    bulk_accepts C s xs (m + n) s'.

(** [p_conforms_leaking P leak ops s a]: as [p_conforms], except that [slurp], called after the last item, may
    report the error [leak] instead of leaving everything as it is. Then the producer has ended, and [Ended]
    holds of its state. *)
Inductive p_conforms_leaking {S T F E} (P : bulk_producer S T F E) (leak : option E) (Ended : S -> Prop)
  : list (pop T) -> S -> pabs T F E -> Prop :=
| leaking_nil : forall s a, p_conforms_leaking P leak Ended [] s a
| leaking_broken : forall o ops s a, ~ p_permitted a o -> p_conforms_leaking P leak Ended (o :: ops) s a
| leaking_step : forall o ops s a s' r a',
    p_permitted a o -> p_do P o s = Ret (s', r) -> p_answer a o r a' ->
    p_conforms_leaking P leak Ended ops s' a' -> p_conforms_leaking P leak Ended (o :: ops) s a
| leaking_slurp : forall ops s last k s' e, leak = Some e ->
    p_slurp P s = Ret (s', Err e) -> Ended s' ->
    p_conforms_leaking P leak Ended (PSlurp :: ops) s (PActive [] last k).

(** What can leak through [Limit] with limit [n]: the error of a producer that fails right after [n] items. *)
Definition limit_leak {T F E} (n : nat) (xs : list T) (l : res F E) : option E :=
  if length xs =? n then match l with Err e => Some e | Ok _ => None end else None.

(** Merge over endless time: endless producers, and schedules that are fair. *)
From Coq Require Import Bool List Arith.
From Verif Require Import Prelude Traits MergeModel MergeSpec.
Import ListNotations.
Set Implicit Arguments.

(** What comes out of a producer that does not fail: item [i], or [None] once it has emitted its final value. It may go on forever. *)
Definition flows {S T F E} (P : producer S T F E) (s : S) (g : nat -> option T) : Prop :=
  exists st : nat -> S, st 0 = s /\
  forall n, (forall j, j < n -> g j <> None) ->
    match g n with
    | Some x => p_produce P (st n) = Ret (st (Datatypes.S n), Ok (inl x))
    | None => exists s' f, p_produce P (st n) = Ret (s', Ok (inr f))
    end.

(** The first items, up to item [n]. *)
Definition up_to {T} (g : nat -> option T) (n : nat) : list T := flat_map (fun i => match g i with Some x => [x] | None => [] end) (seq 0 n).

(** An endless schedule is a function; its beginning. *)
Definition beginning (sched : nat -> choice) (n : nat) : list choice := map sched (seq 0 n).

(** A caller that calls [produce] again and again, up to time [n]. Each call takes time. *)
Definition merge_until {S1 S2 T F E} (P1 : producer S1 T F E) (P2 : producer S2 T F E) (sched : nat -> choice) (n : nat) (m : merge S1 S2)
  : outcome (merge S1 S2 * list T * option (res F E)) := merge_calls P1 P2 n (beginning sched n) m.

(** [select] returns the result of the first or second future, if both exist. *)
Definition picks1 (c : choice) : bool := ready1 c && (negb (second_first c) || negb (ready2 c)).
Definition picks2 (c : choice) : bool := ready2 c && (second_first c || negb (ready1 c)).

Definition infinitely_often (sched : nat -> choice) (Q : choice -> bool) : Prop := forall n, exists m, n <= m /\ Q (sched m) = true.

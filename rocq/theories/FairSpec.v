(** Schedules in which every task gets its turn again and again. *)
From Coq Require Import Bool List Arith.
From Coq.Init Require Import Byte.
From Verif Require Import Prelude Traits AdaptorSpec CodecModel SharedModel SharedSpec.
Import ListNotations.
Set Implicit Arguments.

(** An endless schedule is a function; its first [n] events. *)
Definition before (sched : nat -> event) (n : nat) : list event := map sched (seq 0 n).

(** Each of [k] tasks is polled infinitely often. *)
Definition fair (k : nat) (sched : nat -> event) : Prop := forall i n, i < k -> exists m, n <= m /\ sched m = Poll i.

(** A program of at most [n] steps, whatever others do to the object in between. *)
Inductive short {S X} : nat -> prog S X -> Prop :=
| short_done : forall n x, short n (Done x)
| short_step : forall n f, (forall s s' p, f s = Ret (s', p) -> short n p) -> short (Datatypes.S n) (Step f).

(** A schedule that consists of [r] rounds, in each of which each of [k] tasks is polled at least once. *)
Definition in_rounds (k r : nat) (evs : list event) : Prop :=
  exists segments, evs = concat segments /\ length segments = r /\ Forall (fun seg => forall i, i < k -> In (Poll i) seg) segments.

(** The number of calls of all tasks. *)
Definition all_calls {L K} (tasks : list (L * list K)) : nat := list_sum (map (fun lcs => length (snd lcs)) tasks).

(** The values that a list of calls encodes. *)
Definition consumed_values {RT V F} (cs : list (ecall RT V F)) : list V :=
  flat_map (fun c => match c with EConsume v => [v] | _ => [] end) cs.

(** The values that a task has received. *)
Definition received {S V F E L K} (t : task S (bpans V F E) L K) : list V :=
  flat_map (fun e => match snd e with Some (BPItem (Ok (inl v))) => [v] | _ => [] end) (tk_log t).

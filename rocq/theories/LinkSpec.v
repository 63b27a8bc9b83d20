(** What it should mean that a task delivers a list of items over a connection to another task. *)
From Coq Require Import Bool List Arith.
From Verif Require Import Prelude AsyncModel JoinModel JoinSpec.
Import ListNotations.
Set Implicit Arguments.

(** Whatever amounts the connection moves per call, and whichever of the executors runs the two tasks in whatever order: no task panics, nothing but a prefix of [input] is sent at any
    time, and after that many polls both tasks are done. [wait] is fuel for waiting. *)
Definition delivers {T SR SS} (hr : holds T SR) (hs : holds T SS) (capacity wait : nat) (input : list T) (receive : task SR) (send : task SS) : Prop :=
  forall limits, let start := mk_joint (conn_new limits) receive send in
    (forall schedule, length schedule <= wait -> exists j, exec hr hs schedule start = Ret j /\ sound_joint capacity input j /\
      (length input + 2 <= rounds false schedule -> both_done j = true)) /\
    (forall polls, length input + 2 <= polls <= wait -> exists j, block_on_join hr hs polls start = Ret j /\ both_done j = true /\ sound_joint capacity input j) /\
    (forall prefer, 2 * length input + 5 <= length prefer <= wait ->
      exists j ready, spawned hr hs prefer true true start = Ret (j, ready) /\ both_done j = true /\ sound_joint capacity input j).

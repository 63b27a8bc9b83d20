(** What it should mean that two tasks run concurrently. *)
From Coq Require Import Bool List Arith.
From Verif Require Import Prelude AsyncModel JoinModel.
Import ListNotations.
Set Implicit Arguments.

(** An executor that polls the two tasks in an arbitrary order. *)
Inductive turn : Type := Receive | Send.

Fixpoint exec {T SR SS} (hr : holds T SR) (hs : holds T SS) (schedule : list turn) (j : joint T SR SS) : outcome (joint T SR SS) :=
  match schedule with
  | [] => Ret j
  | Receive :: schedule => let* j := poll_receive hr j in exec hr hs schedule j
  | Send :: schedule => let* j := poll_send hs j in exec hr hs schedule j
  end.

(** How often [schedule] lets first the receiver and then the sender go on; [half]: the receiver has had its turn. *)
Fixpoint rounds (half : bool) (schedule : list turn) : nat :=
  match schedule with
  | [] => 0
  | Receive :: schedule => rounds true schedule
  | Send :: schedule => if half then S (rounds false schedule) else rounds false schedule
  end.

Definition prefix {T} (xs ys : list T) : Prop := exists zs, ys = xs ++ zs.

(** Nothing but a prefix of [input] was sent; no more than [capacity] bytes are in transit; the sender is done only when it has sent everything and closed
    its end; the receiver is done only when the sender is. *)
Definition sound_joint {T SR SS} (capacity : nat) (input : list T) (j : joint T SR SS) : Prop :=
  prefix (cn_sent (j_conn j)) input /\ (cn_closed (j_conn j) = false -> length (cn_buf (j_conn j)) <= capacity) /\
  (j_send j = Done -> cn_sent (j_conn j) = input /\ cn_closed (j_conn j) = true) /\ (j_receive j = Done -> j_send j = Done).

(** An executor to which the two tasks were handed separately: it polls a task if it is ready, that is, at first and whenever its waker has been called since its
    last poll. [prefer] says which of two tasks that are ready it polls. It stops if no task is ready. *)
Fixpoint spawned {T SR SS} (hr : holds T SR) (hs : holds T SS) (prefer : list turn) (ready_r ready_s : bool) (j : joint T SR SS) : outcome (joint T SR SS * (bool * bool)) :=
  match prefer with
  | [] => Ret (j, (ready_r, ready_s))
  | t :: prefer =>
      let asleep := mk_joint (reset_woken (j_conn j)) (j_receive j) (j_send j) in
      if match t with Receive => ready_r | Send => ready_r && negb ready_s end then
        let* j := poll_receive hr asleep in spawned hr hs prefer false (ready_s || cn_woken (j_conn j)) j
      else if ready_s then
        let* j := poll_send hs asleep in spawned hr hs prefer (ready_r || cn_woken (j_conn j)) false j
      else Ret (j, (ready_r, ready_s))
  end.

(** Model of Merge, ufotofu/src/producer/merge.rs, at the granularity of polls.

    [produce_future1] owns the first producer and runs one [produce] call on it; the model of the
    future is the state of that producer. Whether a future is ready when polled is decided by a
    schedule; polling a pending future has no observable effect. Futures are lazy: creating one
    ([fut.set(async move ..)]) does not call [produce], only polling it does.

    [futures::future::select] polls both futures, in an order that depends on the version of the
    library (the schedule decides), and returns the first that is ready. *)
From Coq Require Import Bool List Arith.
From Verif Require Import Prelude Traits.
Import ListNotations.
Set Implicit Arguments.

(** One entry of a schedule: which future [select] polls first, and which are ready. *)
Record choice : Type := mk_choice { second_first : bool; ready1 : bool; ready2 : bool }.

Inductive polled (X : Type) : Type :=
| Pending
| Again
| Ready (r : X).
Arguments Pending {X}.
Arguments Again {X}.
Arguments Ready {X} r.

(** merge.rs 9-12. *)
Record merge (S1 S2 : Type) : Type := mk_merge {
  produce_future1 : option S1;
  produce_future2 : option S2
}.

Section Merge.
  Context {S1 S2 T F E : Type} (P1 : producer S1 T F E) (P2 : producer S2 T F E).

  (** merge.rs 23-32. *)
  Definition merge_new (p1 : S1) (p2 : S2) : merge S1 S2 := mk_merge (Some p1) (Some p2).

  (** The first branch of the match on [select], merge.rs 64-72. *)
  Definition merge_left (s1 : S1) (m : merge S1 S2) : outcome (merge S1 S2 * polled (res (T + F) E)) :=
    let* (p1, result) := p_produce P1 s1 in
    match result with
    | Ok (inr _fin) => Ret (mk_merge None (produce_future2 m), Again)
    | _ => Ret (mk_merge (Some p1) (produce_future2 m), Ready result)
    end.

  (** The second branch, merge.rs 73-81. *)
  Definition merge_right (s2 : S2) (m : merge S1 S2) : outcome (merge S1 S2 * polled (res (T + F) E)) :=
    let* (p2, result) := p_produce P2 s2 in
    match result with
    | Ok (inr _fin) => Ret (mk_merge (produce_future1 m) None, Again)
    | _ => Ret (mk_merge (produce_future1 m) (Some p2), Ready result)
    end.

  (** One pass through the body of the loop of [produce], merge.rs 49-83, up to where it waits. *)
  Definition merge_step (c : choice) (m : merge S1 S2) : outcome (merge S1 S2 * polled (res (T + F) E)) :=
    match produce_future1 m, produce_future2 m with
    | None, None => Panic
    | Some s1, None =>
        if ready1 c then
          let* (p1, result) := p_produce P1 s1 in
          Ret (mk_merge (Some p1) None, Ready result)
        else Ret (m, Pending)
    | None, Some s2 =>
        if ready2 c then
          let* (p2, result) := p_produce P2 s2 in
          Ret (mk_merge None (Some p2), Ready result)
        else Ret (m, Pending)
    | Some s1, Some s2 =>
        if second_first c then
          if ready2 c then merge_right s2 m
          else if ready1 c then merge_left s1 m
          else Ret (m, Pending)
        else
          if ready1 c then merge_left s1 m
          else if ready2 c then merge_right s2 m
          else Ret (m, Pending)
    end.

  (** [produce], merge.rs 47-85, under a schedule. [None]: still pending when the schedule is used up.
      [Again] is the next iteration of the loop; [Pending] waits for the next poll. *)
  Fixpoint merge_produce (sched : list choice) (m : merge S1 S2)
    : outcome (merge S1 S2 * list choice * option (res (T + F) E)) :=
    match sched with
    | [] => Ret (m, [], None)
    | c :: sched =>
        let* (m, p) := merge_step c m in
        match p with
        | Pending | Again => merge_produce sched m
        | Ready result => Ret (m, sched, Some result)
        end
    end.
End Merge.

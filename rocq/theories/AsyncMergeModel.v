(** Model of Merge, ufotofu/src/producer/merge.rs, poll by poll, over producers whose futures are arbitrary.

    [MergeModel] leaves it to a schedule whether the future of a producer is ready, and takes polling one that is not ready
    to be without effect. Here the futures are those of AsyncModel: a poll that returns [Pending] can change the state of the
    producer, and what it has done is lost to whoever forgets the future. *)
From Coq Require Import Bool List Arith.
From Verif Require Import Prelude Traits AsyncModel.
Import ListNotations.
Set Implicit Arguments.

(** [ReusableLocalBoxFuture<(X, S)>] as [Merge] uses it: a future that owns the producer which it works on. *)
Record owned (S X : Type) : Type := mk_owned { o_future : fut S X; o_producer : S }.
Arguments mk_owned {S X}.

(** merge.rs 9-12. *)
Record a_merge (S1 S2 T F E : Type) : Type := mk_a_merge {
  a_future1 : option (owned S1 (res (T + F) E));
  a_future2 : option (owned S2 (res (T + F) E))
}.
Arguments mk_a_merge {S1 S2 T F E}.

(** Where the future of [produce] stands between two polls: at its beginning, or at one of the three [.await]s in
    merge.rs 54, 59 and 63. *)
Inductive merge_at : Type := AtStart | AtFirst | AtSecond | AtSelect.

(** What one pass through the loop body leads to: [select] was done with and the loop goes on, or the poll is over. *)
Inductive merge_pass (X : Type) : Type :=
| NextIteration
| Polled (r : poll_result X merge_at).
Arguments NextIteration {X}.
Arguments Polled {X} r.

Section AsyncMerge.
  Context {S1 S2 T F E : Type} (P1 : a_producer S1 T F E) (P2 : a_producer S2 T F E).

  (** [async move { (p1.produce().await, p1) }], merge.rs 25-27, 55, 65; likewise for the second. *)
  Definition own {S} (P : a_producer S T F E) (p : S) : owned S (res (T + F) E) := mk_owned (ap_produce P) p.

  (** merge.rs 23-32. *)
  Definition a_merge_new (p1 : S1) (p2 : S2) : a_merge S1 S2 T F E := mk_a_merge (Some (own P1 p1)) (Some (own P2 p2)).

  (** Polling such a future: it is ready with the producer and the result, or remains. *)
  Definition poll_owned {S X} (o : owned S X) : outcome (poll_result (S * X) (owned S X)) :=
    let* (p, r) := poll (o_future o) (o_producer o) in
    match r with
    | Ready x => Ret (Ready (p, x))
    | Pending w f => Ret (Pending w (mk_owned f p))
    end.

  (** [(&mut *fut).await] and what follows it, merge.rs 54-56. *)
  Definition await_first (fut1 : owned S1 (res (T + F) E)) (m : a_merge S1 S2 T F E)
    : outcome (a_merge S1 S2 T F E * merge_pass (res (T + F) E)) :=
    let* r := poll_owned fut1 in
    match r with
    | Ready (p1, result) => Ret (mk_a_merge (Some (own P1 p1)) (a_future2 m), Polled (Ready result))
    | Pending w fut1 => Ret (mk_a_merge (Some fut1) (a_future2 m), Polled (Pending w AtFirst))
    end.

  (** merge.rs 59-61. *)
  Definition await_second (fut2 : owned S2 (res (T + F) E)) (m : a_merge S1 S2 T F E)
    : outcome (a_merge S1 S2 T F E * merge_pass (res (T + F) E)) :=
    let* r := poll_owned fut2 in
    match r with
    | Ready (p2, result) => Ret (mk_a_merge (a_future1 m) (Some (own P2 p2)), Polled (Ready result))
    | Pending w fut2 => Ret (mk_a_merge (a_future1 m) (Some fut2), Polled (Pending w AtSecond))
    end.

  (** The two arms of the match on [select], merge.rs 64-72 and 73-81. *)
  Definition select_left (p1 : S1) (result : res (T + F) E) (m : a_merge S1 S2 T F E)
    : a_merge S1 S2 T F E * merge_pass (res (T + F) E) :=
    match result with
    | Ok (inr _fin) => (mk_a_merge None (a_future2 m), NextIteration)
    | _ => (mk_a_merge (Some (own P1 p1)) (a_future2 m), Polled (Ready result))
    end.
  Definition select_right (p2 : S2) (result : res (T + F) E) (m : a_merge S1 S2 T F E)
    : a_merge S1 S2 T F E * merge_pass (res (T + F) E) :=
    match result with
    | Ok (inr _fin) => (mk_a_merge (a_future1 m) None, NextIteration)
    | _ => (mk_a_merge (a_future1 m) (Some (own P2 p2)), Polled (Ready result))
    end.

  (** [select(&mut *fut1, &mut *fut2).await], merge.rs 63: polls one, and the other if that is not ready. Which of them is
      first depends on the version of the futures library. *)
  Definition await_select (second_first : bool) (fut1 : owned S1 (res (T + F) E)) (fut2 : owned S2 (res (T + F) E))
    : outcome (a_merge S1 S2 T F E * merge_pass (res (T + F) E)) :=
    if second_first then
      let* r2 := poll_owned fut2 in
      match r2 with
      | Ready (p2, result) => Ret (select_right p2 result (mk_a_merge (Some fut1) (Some fut2)))
      | Pending w2 fut2 =>
          let* r1 := poll_owned fut1 in
          match r1 with
          | Ready (p1, result) => Ret (select_left p1 result (mk_a_merge (Some fut1) (Some fut2)))
          | Pending w1 fut1 => Ret (mk_a_merge (Some fut1) (Some fut2), Polled (Pending (w2 || w1) AtSelect))
          end
      end
    else
      let* r1 := poll_owned fut1 in
      match r1 with
      | Ready (p1, result) => Ret (select_left p1 result (mk_a_merge (Some fut1) (Some fut2)))
      | Pending w1 fut1 =>
          let* r2 := poll_owned fut2 in
          match r2 with
          | Ready (p2, result) => Ret (select_right p2 result (mk_a_merge (Some fut1) (Some fut2)))
          | Pending w2 fut2 => Ret (mk_a_merge (Some fut1) (Some fut2), Polled (Pending (w1 || w2) AtSelect))
          end
      end.

  (** One pass through the loop body, merge.rs 49-83, from its beginning or from an [.await]. The future of [produce] keeps
      borrows of the futures which it was waiting for; that they are there is checked by the compiler ([Panic] stands
      for what it rules out; C80_merge_interleaves shows that it does not happen). *)
  Definition merge_body (second_first : bool) (at_ : merge_at) (m : a_merge S1 S2 T F E)
    : outcome (a_merge S1 S2 T F E * merge_pass (res (T + F) E)) :=
    match at_, a_future1 m, a_future2 m with
    | AtStart, None, None => Panic
    | AtStart, Some fut1, None => await_first fut1 m
    | AtStart, None, Some fut2 => await_second fut2 m
    | AtStart, Some fut1, Some fut2 => await_select second_first fut1 fut2
    | AtFirst, Some fut1, _ => await_first fut1 m
    | AtSecond, _, Some fut2 => await_second fut2 m
    | AtSelect, Some fut1, Some fut2 => await_select second_first fut1 fut2
    | _, _, _ => Panic
    end.

  (** One poll of the future of [produce], merge.rs 47-85: iterates until it has to wait or returns. *)
  Fixpoint merge_poll (fuel : nat) (second_first : bool) (at_ : merge_at) (m : a_merge S1 S2 T F E)
    : outcome (a_merge S1 S2 T F E * poll_result (res (T + F) E) merge_at) :=
    match fuel with
    | 0 => NoFuel
    | S fuel =>
        let* (m, p) := merge_body second_first at_ m in
        match p with
        | NextIteration => merge_poll fuel second_first AtStart m
        | Polled r => Ret (m, r)
        end
    end.
End AsyncMerge.

(** What a caller sees of Merge that polls, and perhaps drops, the futures which it gets. *)
From Coq Require Import Bool List Arith.
From Verif Require Import Prelude Traits MergeModel MergeSpec AsyncModel AsyncSpec AsyncMergeModel.
Import ListNotations.
Set Implicit Arguments.

(** One step of a caller: perhaps it drops the future of [produce] that it has, unfinished, and calls [produce] again; then it
    polls. Also, what the version of [select] polls first. *)
Record merge_act : Type := mk_merge_act { drop_first : bool; order : bool }.

(** A caller that calls [produce] until it gets a last value. It gets the items, and the last value if there was one. *)
Fixpoint merge_session {S1 S2 T F E} (P1 : a_producer S1 T F E) (P2 : a_producer S2 T F E) (fuel : nat) (acts : list merge_act)
    (at_ : merge_at) (m : a_merge S1 S2 T F E) : outcome (a_merge S1 S2 T F E * list T * option (res F E)) :=
  match acts with
  | [] => Ret (m, [], None)
  | act :: acts =>
      let* (m, r) := merge_poll P1 P2 fuel (order act) (if drop_first act then AtStart else at_) m in
      match r with
      | AsyncModel.Pending _ at_ => merge_session P1 P2 fuel acts at_ m
      | AsyncModel.Ready (Ok (inl x)) =>
          let* (m, xs, l) := merge_session P1 P2 fuel acts AtStart m in
          Ret (m, x :: xs, l)
      | AsyncModel.Ready (Ok (inr f)) => Ret (m, [], Some (Ok f))
      | AsyncModel.Ready (Err e) => Ret (m, [], Some (Err e))
      end
  end.

(** [a_yields P s xs l n]: repeatedly calling [produce] on [s], and polling each future until it is ready, yields the items
    [xs], then [l]; [n] of the polls return [Pending]. *)
Inductive a_yields {S T F E} (P : a_producer S T F E) : S -> list T -> res F E -> nat -> Prop :=
| a_yields_final : forall s s' f, run (ap_produce P) s = Ret (s', Ok (inr f)) -> a_yields P s [] (Ok f) (pendings (ap_produce P) s)
| a_yields_error : forall s s' e, run (ap_produce P) s = Ret (s', Err e) -> a_yields P s [] (Err e) (pendings (ap_produce P) s)
| a_yields_item : forall s s' x xs l n, run (ap_produce P) s = Ret (s', Ok (inl x)) -> a_yields P s' xs l n ->
    a_yields P s (x :: xs) l (pendings (ap_produce P) s + n).

(** Where the polls of such a caller that returned [Pending] wait, and what they did with the waker. *)
Fixpoint merge_wakes {S1 S2 T F E} (P1 : a_producer S1 T F E) (P2 : a_producer S2 T F E) (fuel : nat) (acts : list merge_act)
    (at_ : merge_at) (m : a_merge S1 S2 T F E) : list (merge_at * bool) :=
  match acts with
  | [] => []
  | act :: acts =>
      match merge_poll P1 P2 fuel (order act) (if drop_first act then AtStart else at_) m with
      | Ret (m, AsyncModel.Pending w at_) => (at_, w) :: merge_wakes P1 P2 fuel acts at_ m
      | Ret (m, AsyncModel.Ready (Ok (inl _))) => merge_wakes P1 P2 fuel acts AtStart m
      | _ => []
      end
  end.

(** A poll that waits for one producer does what that producer does; one that waits for both calls the waker if one of them does. *)
Definition woken_by (Q1 Q2 : bool -> Prop) (aw : merge_at * bool) : Prop :=
  match fst aw with
  | AtStart => False
  | AtFirst => Q1 (snd aw)
  | AtSecond => Q2 (snd aw)
  | AtSelect => exists w1 w2, Q1 w1 /\ Q2 w2 /\ snd aw = w1 || w2
  end.

(** What the caller gets, without the state. *)
Definition seen {M T F E} (o : outcome (M * list T * option (res F E))) : outcome (list T * option (res F E)) :=
  let* (_, xs, l) := o in Ret (xs, l).

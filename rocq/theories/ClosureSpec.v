(** Feeding a consumer with what a closure makes of some items. *)
From Coq Require Import Bool List Arith.
From Verif Require Import Prelude Traits Contracts CloneModel CloneSpec.
Import ListNotations.
Set Implicit Arguments.

Section Closure.
  Context {W T U A F E : Type} (f : T -> W -> W * option U) (M : machine A U F E).

  (** Item by item, each passed to the closure once, until all are accepted, one is refused, or the closure panics: the state
      and world reached, the number of items accepted, and how it ended. *)
  Fixpoint map_feed (xs : list T) (a : A) (w : W) : A * W * nat * stopped E :=
    match xs with
    | [] => (a, w, 0, AllTaken)
    | x :: xs =>
        match f x w with
        | (w, None) => (a, w, 0, Panicked)
        | (w, Some y) =>
            match m_step M y a with
            | (a, Err e) => (a, w, 0, Refused e)
            | (a, Ok _) => match map_feed xs a w with (a, w, n, r) => (a, w, S n, r) end
            end
        end
    end.

  (** The same, leaving out the items on which the closure panics: the state and world reached, and the error if an item was
      refused, with the items that had not been looked at then. *)
  Fixpoint skip_feed (xs : list T) (a : A) (w : W) : A * W * option (E * list T) :=
    match xs with
    | [] => (a, w, None)
    | x :: xs =>
        match f x w with
        | (w, None) => skip_feed xs a w
        | (w, Some y) =>
            match m_step M y a with
            | (a, Err e) => (a, w, Some (e, xs))
            | (a, Ok _) => skip_feed xs a w
            end
        end
    end.

  (** The items on which the closure panics, when it is called for one after the other. *)
  Fixpoint panics (xs : list T) (w : W) : nat :=
    match xs with
    | [] => 0
    | x :: xs => match f x w with (w, None) => S (panics xs w) | (w, Some _) => panics xs w end
    end.
End Closure.

(** How a pipe ends when all items have been accepted. *)
Definition pipe_end {A T F PE CE} (M : machine A T F CE) (l : res F PE) (a : A) : res unit (pipe_error PE CE) :=
  match l with
  | Ok fin => map_err PipeConsumer (snd (m_finish M fin a))
  | Err e => Err (PipeProducer e)
  end.

Section Pipes.
  Context {W T U A F PE CE SP SC : Type} (f : T -> W -> W * option U) (M : machine A U F CE)
    (RP : SP -> list T -> res F PE -> nat -> Prop) (DP : SP -> Prop) (RC : SC -> A -> nat -> list U -> Prop) (DC : SC -> A -> Prop).

  (** A pipe that applies the closure to each item on its way. If the closure panics, the item is lost; the producer is
      about to emit the next one, and the consumer has what came before. *)
  Definition pipes_mapped (run : nat -> SP -> SC -> W -> outcome (SP * SC * W * caught (res unit (pipe_error PE CE)))) : Prop :=
    forall xs fuel sp sc w l k a kc v, RP sp xs l k -> RC sc a kc v -> length xs < fuel ->
    exists sp' sc',
      match map_feed f M xs a w with
      | (a', w', _, AllTaken) =>
          run fuel sp sc w = Ret (sp', sc', w', Done (pipe_end M l a')) /\ DP sp' /\
          match l with Ok fin => DC sc' (fst (m_finish M fin a')) | Err _ => RC sc' a' 0 [] end
      | (a', w', n, Refused e) =>
          run fuel sp sc w = Ret (sp', sc', w', Done (Err (PipeConsumer e))) /\ RP sp' (skipn (n + 1) xs) l 0 /\ DC sc' a'
      | (a', w', n, Panicked) =>
          run fuel sp sc w = Ret (sp', sc', w', Unwound) /\ RP sp' (skipn (n + 1) xs) l 0 /\ RC sc' a' 0 []
      end.

  (** Calling the pipe again after each panic: the consumer gets what the closure makes of the items, without those on which it
      panics, and is closed. *)
  Definition pipes_skipping (run : nat -> nat -> SP -> SC -> W -> outcome (SP * SC * W * caught (res unit (pipe_error PE CE)))) : Prop :=
    forall attempts xs fuel sp sc w l k a kc v, RP sp xs l k -> RC sc a kc v -> length xs < fuel -> panics f xs w < attempts ->
    exists sp' sc',
      match skip_feed f M xs a w with
      | (a', w', None) =>
          run attempts fuel sp sc w = Ret (sp', sc', w', Done (pipe_end M l a')) /\ DP sp' /\
          match l with Ok fin => DC sc' (fst (m_finish M fin a')) | Err _ => RC sc' a' 0 [] end
      | (a', w', Some (e, rest)) =>
          run attempts fuel sp sc w = Ret (sp', sc', w', Done (Err (PipeConsumer e))) /\ RP sp' rest l 0 /\ DC sc' a'
      end.
End Pipes.

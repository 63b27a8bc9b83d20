(** What the pipe functions and the full-slice helpers are supposed to do. *)
From Coq Require Import Bool List Arith.
From Verif Require Import Prelude Traits Contracts.
Import ListNotations.
Set Implicit Arguments.

(** [emits P s xs s']: successive [produce] calls starting in [s] yield the items [xs]. *)
Inductive emits {S T F E} (P : producer S T F E) : S -> list T -> S -> Prop :=
| emits_nil : forall s, emits P s [] s
| emits_cons : forall s x s1 xs s', p_produce P s = Ret (s1, Ok (inl x)) -> emits P s1 xs s' ->
    emits P s (x :: xs) s'.

(** [accepts C s xs s']: successive [consume] calls starting in [s] accept the items [xs]. *)
Inductive accepts {S T F E} (C : consumer S T F E) : S -> list T -> S -> Prop :=
| accepts_nil : forall s, accepts C s [] s
| accepts_cons : forall s x s1 xs s', c_consume C x s = Ret (s1, Ok tt) -> accepts C s1 xs s' ->
    accepts C s (x :: xs) s'.

(** [piped P C sp sc xs sp' sc' r]: exactly the items [xs] went from producer to consumer, and then
    the final value was passed on, or the producer failed, or the consumer refused an item. *)
Inductive piped {SP SC T F PE CE} (P : producer SP T F PE) (C : consumer SC T F CE) (sp : SP) (sc : SC)
  : list T -> SP -> SC -> res unit (pipe_error PE CE) -> Prop :=
| piped_final : forall xs sp1 sc1 f sp' sc' r,
    emits P sp xs sp1 -> accepts C sc xs sc1 ->
    p_produce P sp1 = Ret (sp', Ok (inr f)) -> c_close C f sc1 = Ret (sc', r) ->
    piped P C sp sc xs sp' sc' (map_err PipeConsumer r)
| piped_producer_error : forall xs sp1 e sp' sc',
    emits P sp xs sp1 -> accepts C sc xs sc' ->
    p_produce P sp1 = Ret (sp', Err e) ->
    piped P C sp sc xs sp' sc' (Err (PipeProducer e))
| piped_consumer_error : forall xs x sc1 e sp' sc',
    emits P sp (xs ++ [x]) sp' -> accepts C sc xs sc1 ->
    c_consume C x sc1 = Ret (sc', Err e) ->
    piped P C sp sc xs sp' sc' (Err (PipeConsumer e)).

(** The same with a limit on the number of items. *)
Inductive piped_at_most {SP SC T F PE CE} (P : producer SP T F PE) (C : consumer SC T F CE)
    (count : nat) (sp : SP) (sc : SC) : list T -> SP -> SC -> res nat (pipe_error PE CE) -> Prop :=
| piped_at_most_limit : forall xs sp' sc',
    length xs = count -> emits P sp xs sp' -> accepts C sc xs sc' ->
    piped_at_most P C count sp sc xs sp' sc' (Ok count)
| piped_at_most_short : forall xs sp' sc' r,
    length xs < count -> piped P C sp sc xs sp' sc' r ->
    piped_at_most P C count sp sc xs sp' sc'
      (match r with Ok _ => Ok (length xs) | Err e => Err e end).

(** For lawful producers and consumers, the effect in terms of the sequence [xs], [l] of
    the producer and the machine [M] of the consumer: what is left in the
    producer, the state of the consumer, and the result. *)
Definition pipe_effect {A T F PE CE} (M : machine A T F CE) (xs : list T) (l : res F PE) (a : A)
  : pabs T F PE * cabs A T * res unit (pipe_error PE CE) :=
  match m_feed M xs a with
  | (a', n, Some e) => (PActive (skipn (S n) xs) l 0, CEnded a', Err (PipeConsumer e))
  | (a', _, None) =>
      match l with
      | Err e => (PEnded, CActive a' 0 [], Err (PipeProducer e))
      | Ok f => (PEnded, CEnded (fst (m_finish M f a')), map_err PipeConsumer (snd (m_finish M f a')))
      end
  end.

Definition pipe_at_most_effect {A T F PE CE} (M : machine A T F CE) (count : nat) (xs : list T)
    (l : res F PE) (a : A) : pabs T F PE * cabs A T * res nat (pipe_error PE CE) :=
  if length xs <? count then
    match pipe_effect M xs l a with
    | (p, c, Ok _) => (p, c, Ok (length xs))
    | (p, c, Err e) => (p, c, Err e)
    end
  else
    match m_feed M (firstn count xs) a with
    | (a', n, Some e) => (PActive (skipn (S n) xs) l 0, CEnded a', Err (PipeConsumer e))
    | (a', _, None) => (PActive (skipn count xs) l 0, CActive a' 0 [], Ok count)
    end.

(** What bulk piping leaves in the producer, compared to piping: the same, unless the
    consumer refuses an item. Then it leaves more, namely the items from some position [m]
    on, where [m] is no larger than the number [n] of items that the consumer accepted. So
    the refused item is never lost. *)
Inductive lags {X T F PE CE} (xs : list T) (l : res F PE)
  : res X (pipe_error PE CE) -> pabs T F PE -> pabs T F PE -> Prop :=
| lags_ended : forall r, lags xs l r PEnded PEnded
| lags_ok : forall x p, lags xs l (Ok x) p p
| lags_behind : forall e m n, m <= n -> n < length xs ->
    lags xs l (Err (PipeConsumer e)) (PActive (skipn (S n) xs) l 0) (PActive (skipn m xs) l 0).

(** [consume_full_slice] over a machine: all of [buf], or an error with the number of
    items accepted before it. *)
Definition full_slice_effect {A T F E} (M : machine A T F E) (buf : list T) (a : A)
  : cabs A T * res unit (consume_at_least_error E) :=
  match m_feed M buf a with
  | (a', _, None) => (CActive a' 0 [], Ok tt)
  | (a', n, Some e) => (CEnded a', Err (mk_cale n e))
  end.

(** [overwrite_full_slice] over a sequence: the remaining sequence, the new contents of
    the buffer, and the result. *)
Definition overwrite_effect {T F E} (xs : list T) (l : res F E) (buf : list T)
  : pabs T F E * list T * res unit (produce_at_least_error F E) :=
  if length buf <=? length xs
  then (PActive (skipn (length buf) xs) l 0, firstn (length buf) xs, Ok tt)
  else (PEnded, xs ++ skipn (length xs) buf,
        Err (mk_pale (length xs) (match l with Ok f => inl f | Err e => inr e end))).

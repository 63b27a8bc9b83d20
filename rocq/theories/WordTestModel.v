(** [TestProducer] and [TestConsumer] with the arithmetic of machine words throughout: the offset of the inner [FromSlice], the
    vector and the counter of the inner [IntoVec], the indices of the yielder and of the sizes, and the countdown to the error.
    Paths are relative to ufotofu/src.

    Simplifications: as in BasicModel and WordBasicModel. *)
From Coq Require Import Bool List Arith.
From Verif Require Import Prelude Traits BasicModel WordModel WordBasicModel.
Import ListNotations.
Set Implicit Arguments.

Section Words.
  Context (W : nat) (checked : bool).

  (** Awaiting [maybe_yield], test_yielder.rs 36-39, 61-71. *)
  Fixpoint word_yielder_await (fuel : nat) (y : yielder) : outcome yielder :=
    match fuel with
    | 0 => NoFuel
    | S fuel =>
        let* (y, ready) := word_yielder_poll W checked y in
        if ready then Ret y else word_yielder_await fuel y
    end.

  (** producer/test_producer.rs 326-331, consumer/test_consumer.rs 340-345. *)
  Definition word_maybe_yield (y : option yielder) : outcome (option yielder) :=
    match y with
    | None => Ret None
    | Some y => let* y := word_yielder_await (length (y_pattern y)) y in Ret (Some y)
    end.

  (** ** TestProducer *)
  Section TestProducer.
    Context {T F E : Type}.
    Notation state := (test_producer_state T F E).

    Definition word_tp_maybe_yield (s : state) : outcome state :=
      let* y := word_maybe_yield (tp_yielder s) in
      Ret (mk_tp (tp_inner s) (tp_last s) (tp_sizes s) y).

    (** producer/test_producer.rs 339-351. *)
    Definition word_test_producer_produce (s : state) : outcome (state * res (T + F) E) :=
      let* s := word_tp_maybe_yield s in
      let* rest := from_slice_not_yet_produced (tp_inner s) in
      match rest with
      | [] =>
          let* (s, last) := tp_take_last s in
          match last with Ok fin => Ret (s, Ok (inr fin)) | Err err => Ret (s, Err err) end
      | _ =>
          let* (i, r) := word_from_slice_produce W checked (tp_inner s) in
          let* item := unwrap_left r in
          Ret (set_inner i s, Ok (inl item))
      end.

    (** test_producer.rs 355-366. *)
    Definition word_test_producer_slurp (s : state) : outcome (state * res unit E) :=
      let* s := word_tp_maybe_yield s in
      let* (s, e) := tp_check_error s in
      match e with Some err => Ret (s, Err err) | None => Ret (s, Ok tt) end.

    (** test_producer.rs 370-405. *)
    Definition word_test_producer_expose (s : state) : outcome (state * res (list T + F) E) :=
      let* s := word_tp_maybe_yield s in
      let* rest := from_slice_not_yet_produced (tp_inner s) in
      match rest with
      | [] =>
          let* (s, last) := tp_take_last s in
          match last with Ok fin => Ret (s, Ok (inr fin)) | Err err => Ret (s, Err err) end
      | _ =>
          match tp_sizes s with
          | None =>
              let* (i, r) := from_slice_expose (tp_inner s) in
              let* items := unwrap_left r in
              Ret (set_inner i s, Ok (inl items))
          | Some sz =>
              let* (max_len, sz) := word_next_size W checked sz in
              let* (i, r) := from_slice_expose (tp_inner s) in
              let* items := unwrap_left r in
              let actual_len := Nat.min (length items) max_len in
              let* items := slice_to actual_len items in
              Ret (mk_tp i (tp_last s) (Some sz) (tp_yielder s), Ok (inl items))
          end
      end.

    (** test_producer.rs 407-423. *)
    Definition word_test_producer_consider (amount : nat) (s : state) : outcome (state * res unit E) :=
      let* s := word_tp_maybe_yield s in
      let* (s, e) := tp_check_error s in
      match e with
      | Some err => Ret (s, Err err)
      | None =>
          let* (i, r) := word_from_slice_consider W checked amount (tp_inner s) in
          Ret (set_inner i s, Ok tt)
      end.

    Definition word_test_producer : bulk_producer state T F E :=
      bulk_producer_of word_test_producer_produce word_test_producer_slurp word_test_producer_expose word_test_producer_consider.
  End TestProducer.

  (** ** TestConsumer *)
  Section TestConsumer.
    (** [max_len] as in WordBasicModel: how many items a vector can hold. *)
    Context {T F E : Type} (default : T) (max_len : nat).
    Notation state := (test_consumer_state T F E).

    Definition word_tc_maybe_yield (s : state) : outcome state :=
      let* y := word_maybe_yield (tc_yielder s) in
      Ret (mk_tc (tc_inner s) (tc_fin s) (tc_error s) (tc_left s) (tc_sizes s) y).

    (** consumer/test_consumer.rs 366-373. *)
    Definition word_consumer_consume (item : T) (s : state) : outcome (state * res unit E) :=
      let* s := word_tc_maybe_yield s in
      let* (s, e) := tc_check_error s in
      match e with
      | Some err => Ret (s, Err err)
      | None =>
          let* (i, r) := word_into_vec_consume W checked default max_len item (tc_inner s) in
          let* rem := wsub W checked (tc_left s) 1 in
          Ret (mk_tc i (tc_fin s) (tc_error s) rem (tc_sizes s) (tc_yielder s), Ok tt)
      end.

    (** test_consumer.rs 375-382. *)
    Definition word_consumer_close (fin : F) (s : state) : outcome (state * res unit E) :=
      let* s := word_tc_maybe_yield s in
      let* (s, e) := tc_check_error s in
      match e with
      | Some err => Ret (s, Err err)
      | None =>
          let* (i, r) := into_vec_close tt (tc_inner s) in
          Ret (mk_tc i (Some fin) (tc_error s) (tc_left s) (tc_sizes s) (tc_yielder s), Ok tt)
      end.

    (** test_consumer.rs 386-392. *)
    Definition word_consumer_flush (s : state) : outcome (state * res unit E) :=
      let* s := word_tc_maybe_yield s in
      let* (s, e) := tc_check_error s in
      match e with
      | Some err => Ret (s, Err err)
      | None =>
          let* (i, r) := into_vec_flush (tc_inner s) in
          Ret (mk_tc i (tc_fin s) (tc_error s) (tc_left s) (tc_sizes s) (tc_yielder s), Ok tt)
      end.

    (** test_consumer.rs 399-428. [W - 1] is [usize::MAX]. *)
    Definition word_consumer_expose (s : state) : outcome (state * res nat E) :=
      let* s := word_tc_maybe_yield s in
      let* (s, e) := tc_check_error s in
      match e with
      | Some err => Ret (s, Err err)
      | None =>
          let* (size, sz) :=
            match tc_sizes s with
            | None => Ret (W - 1, None)
            | Some sz => let* (n, sz) := word_next_size W checked sz in Ret (n, Some sz)
            end in
          let min_len := Nat.min 2048 size in
          let* i := word_tc_grow W checked default max_len (min_len + 1) min_len (tc_inner s) in
          let* (i, r) := word_into_vec_expose W checked default max_len i in
          match r with
          | Ok slots =>
              let actual_len := Nat.min (Nat.min slots size) (tc_left s) in
              Ret (mk_tc i (tc_fin s) (tc_error s) (tc_left s) sz (tc_yielder s), Ok actual_len)
          | Err _ => Panic
          end
      end.

    (** test_consumer.rs 430-439. *)
    Definition word_consumer_consume_slots (amount : nat) (s : state) : outcome (state * res unit E) :=
      let* s := word_tc_maybe_yield s in
      let* (s, e) := tc_check_error s in
      match e with
      | Some err => Ret (s, Err err)
      | None =>
          let* (i, r) := word_into_vec_consume_slots W checked amount (tc_inner s) in
          let* rem := wsub W checked (tc_left s) amount in
          Ret (mk_tc i (tc_fin s) (tc_error s) rem (tc_sizes s) (tc_yielder s), Ok tt)
      end.

    Definition word_consumer : bulk_consumer state T F E :=
      bulk_consumer_of word_consumer_consume word_consumer_close word_consumer_flush word_consumer_expose
        (@test_consumer_write T F E) word_consumer_consume_slots.
  End TestConsumer.
End Words.

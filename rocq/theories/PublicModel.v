(** The types that the ufotofu crate exports: [FromSlice], [FromBoxedSlice], [Empty],
    [TestProducer], [IntoVec], [TestConsumer]. Each of them is the type of the same
    name in BasicModel inside an [Invariant]; all trait methods are generated by the macros of
    producer/macros.rs and consumer/macros.rs and call the method of the
    same name of the [Invariant]. The test producer and the test consumer in turn contain an exported
    [FromBoxedSlice] and an exported [IntoVec], so that in a test build there are two checkers.

    Which [Invariant] that is depends on the build (producer.rs and consumer.rs,
    [cfg(test)]): in a test build the checker of invariant.rs, otherwise the one of
    invariant_noop.rs. Here the build is a parameter, [checks].

    Simplification: the state of both is the record of the checker, whose last two
    fields the other one never touches. Paths are relative to ufotofu/src. *)
From Coq Require Import List Arith.
From Verif Require Import Prelude Traits BasicModel AdaptorModel.
Import ListNotations.
Set Implicit Arguments.

(** A method of invariant_noop.rs: call the method of the field [inner]. *)
Definition inv_forward {S X} (f : S -> outcome (S * X)) (s : invariant S) : outcome (invariant S * X) :=
  let* (i, r) := f (inv_inner s) in
  Ret (mk_invariant i (inv_active s) (inv_exposed s), r).

(** producer/invariant_noop.rs 69-92. *)
Definition forwarding_producer {S T F E} (P : bulk_producer S T F E) : bulk_producer (invariant S) T F E :=
  bulk_producer_of (inv_forward (p_produce P)) (inv_forward (p_slurp P)) (inv_forward (p_expose P))
    (fun n => inv_forward (p_consider P n)).

(** consumer/invariant_noop.rs 68-99. *)
Definition forwarding_consumer {S T F E} (C : bulk_consumer S T F E) : bulk_consumer (invariant S) T F E :=
  bulk_consumer_of (fun x => inv_forward (c_consume C x)) (fun f => inv_forward (c_close C f))
    (inv_forward (c_flush C)) (inv_forward (c_expose C))
    (fun ys s => mk_invariant (c_write C ys (inv_inner s)) (inv_active s) (inv_exposed s))
    (fun n => inv_forward (c_consume_slots C n)).

(** producer/macros.rs 19-32, 55-61, 77-112: all methods go to [self.0]. *)
Definition public_producer {S T F E} (checks : bool) (P : bulk_producer S T F E)
  : bulk_producer (invariant S) T F E :=
  let inner := if checks then invariant_producer P else forwarding_producer P in
  mk_bulk_producer
    (mk_buffered_producer (mk_producer (fun s => p_produce inner s)) (fun s => p_slurp inner s))
    (fun s => p_expose inner s) (fun amount s => p_consider inner amount s)
    (fun buf s => p_bulk_produce inner buf s).

(** consumer/macros.rs 19-39, 62-68, 84-116. *)
Definition public_consumer {S T F E} (checks : bool) (C : bulk_consumer S T F E)
  : bulk_consumer (invariant S) T F E :=
  let inner := if checks then invariant_consumer C else forwarding_consumer C in
  mk_bulk_consumer
    (mk_buffered_consumer (mk_consumer (fun item s => c_consume inner item s) (fun fin s => c_close inner fin s))
       (fun s => c_flush inner s))
    (fun s => c_expose inner s) (fun ys s => c_write inner ys s) (fun amount s => c_consume_slots inner amount s)
    (fun buf s => c_bulk_consume inner buf s).

(** Constructors: [FromSlice_(Invariant::new(..))] and so on; from_slice.rs 33-36, from_boxed_slice.rs 41-45 and
    63-67, empty.rs 30-36, into_vec.rs 83-90. *)
Definition public_from_slice_new {T} (l : list T) : invariant (from_slice T) := invariant_new (from_slice_new l).
Definition public_empty_new {F} (fin : F) : invariant (option F) := invariant_new (empty_new fin).
Definition public_into_vec_from_vec {T} (v : list T) : invariant (into_vec T) := invariant_new (into_vec_from_vec v).

(** Accessors: [self.0.as_ref()] and [self.0.into_inner()] reach the field [inner]; from_slice.rs 59-61,
    84-86, 109-111, 128-130, into_vec.rs 106-109 and 122. *)
Definition public_from_slice_offset {T} (s : invariant (from_slice T)) : nat := fs_offset (inv_inner s).
Definition public_from_slice_produced_so_far {T} (s : invariant (from_slice T)) : outcome (list T) :=
  from_slice_produced_so_far (inv_inner s).
Definition public_from_slice_not_yet_produced {T} (s : invariant (from_slice T)) : outcome (list T) :=
  from_slice_not_yet_produced (inv_inner s).
Definition public_into_vec_into_vec {T} (s : invariant (into_vec T)) : list T := into_vec_into_vec (inv_inner s).
Definition public_into_vec_as_ref {T} (s : invariant (into_vec T)) : outcome (list T) := into_vec_as_ref (inv_inner s).

(** ** TestProducer *)

(** producer/test_producer.rs 302-307, with the field [inner] of its actual type. *)
Record nested_tp_state (T F E : Type) : Type := mk_ntp {
  ntp_inner : invariant (from_slice T);
  ntp_last : option (res F E);
  ntp_sizes : option (list nat * nat);
  ntp_yielder : option yielder
}.

Section NestedTestProducer.
  Context {T F E : Type} (checks : bool).
  Notation state := (nested_tp_state T F E).
  Notation inner := (public_producer checks (@from_slice_producer T)).

  (** [TestProducerBuilder], test_producer.rs 216-223, 247-255, 260-272, 291-298. *)
  Definition nested_tp_build (items : list T) (last : res F E)
      (sizes : option (list nat)) (pattern : option (list bool)) : state :=
    mk_ntp (public_from_slice_new items) (Some last)
      (match sizes with
       | Some sizes => match builder_sizes sizes with Some sizes => Some (sizes, 0) | None => None end
       | None => None
       end)
      (match pattern with Some p => Some (yielder_new (builder_yield_pattern p)) | None => None end).

  Definition ntp_maybe_yield (s : state) : outcome state :=
    let* y := maybe_yield (ntp_yielder s) in
    Ret (mk_ntp (ntp_inner s) (ntp_last s) (ntp_sizes s) y).

  Definition ntp_take_last (s : state) : outcome (state * res F E) :=
    let* last := expect (ntp_last s) in
    Ret (mk_ntp (ntp_inner s) None (ntp_sizes s) (ntp_yielder s), last).

  Definition ntp_set_inner (i : invariant (from_slice T)) (s : state) : state :=
    mk_ntp i (ntp_last s) (ntp_sizes s) (ntp_yielder s).

  (** test_producer.rs 339-351. *)
  Definition nested_tp_produce (s : state) : outcome (state * res (T + F) E) :=
    let* s := ntp_maybe_yield s in
    let* rest := public_from_slice_not_yet_produced (ntp_inner s) in
    match rest with
    | [] =>
        let* (s, last) := ntp_take_last s in
        match last with Ok fin => Ret (s, Ok (inr fin)) | Err err => Ret (s, Err err) end
    | _ =>
        let* (i, r) := p_produce inner (ntp_inner s) in
        let* item := unwrap_left r in
        Ret (ntp_set_inner i s, Ok (inl item))
    end.

  Definition ntp_check_error (s : state) : outcome (state * option E) :=
    let* rest := public_from_slice_not_yet_produced (ntp_inner s) in
    match rest with
    | [] =>
        let* last := expect (ntp_last s) in
        match last with
        | Ok _ => Ret (s, None)
        | Err err => Ret (mk_ntp (ntp_inner s) None (ntp_sizes s) (ntp_yielder s), Some err)
        end
    | _ => Ret (s, None)
    end.

  (** test_producer.rs 355-366. *)
  Definition nested_tp_slurp (s : state) : outcome (state * res unit E) :=
    let* s := ntp_maybe_yield s in
    let* (s, e) := ntp_check_error s in
    match e with Some err => Ret (s, Err err) | None => Ret (s, Ok tt) end.

  (** test_producer.rs 370-405. *)
  Definition nested_tp_expose (s : state) : outcome (state * res (list T + F) E) :=
    let* s := ntp_maybe_yield s in
    let* rest := public_from_slice_not_yet_produced (ntp_inner s) in
    match rest with
    | [] =>
        let* (s, last) := ntp_take_last s in
        match last with Ok fin => Ret (s, Ok (inr fin)) | Err err => Ret (s, Err err) end
    | _ =>
        match ntp_sizes s with
        | None =>
            let* (i, r) := p_expose inner (ntp_inner s) in
            let* items := unwrap_left r in
            Ret (ntp_set_inner i s, Ok (inl items))
        | Some sz =>
            let* (max_len, sz) := next_size sz in
            let* (i, r) := p_expose inner (ntp_inner s) in
            let* items := unwrap_left r in
            let actual_len := Nat.min (length items) max_len in
            let* items := slice_to actual_len items in
            Ret (mk_ntp i (ntp_last s) (Some sz) (ntp_yielder s), Ok (inl items))
        end
    end.

  (** test_producer.rs 407-423. *)
  Definition nested_tp_consider (amount : nat) (s : state) : outcome (state * res unit E) :=
    let* s := ntp_maybe_yield s in
    let* (s, e) := ntp_check_error s in
    match e with
    | Some err => Ret (s, Err err)
    | None =>
        let* (i, r) := p_consider inner amount (ntp_inner s) in
        match r with
        | Ok _ => Ret (ntp_set_inner i s, Ok tt)
        | Err _ => Panic
        end
    end.

  Definition nested_test_producer : bulk_producer state T F E :=
    bulk_producer_of nested_tp_produce nested_tp_slurp nested_tp_expose nested_tp_consider.
End NestedTestProducer.

(** ** TestConsumer *)

(** consumer/test_consumer.rs 302-309, with the field [inner] of its actual type. *)
Record nested_tc_state (T F E : Type) : Type := mk_ntc {
  ntc_inner : invariant (into_vec T);
  ntc_fin : option F;
  ntc_error : option E;
  ntc_left : nat;
  ntc_sizes : option (list nat * nat);
  ntc_yielder : option yielder
}.

Section NestedTestConsumer.
  Context {T F E : Type} (checks : bool) (default : T).
  Notation state := (nested_tc_state T F E).
  Notation inner := (public_consumer checks (into_vec_consumer default)).

  (** [TestConsumerBuilder], test_consumer.rs 218-225, 247-255, 260-272, 289-298. *)
  Definition nested_tc_build (error : E) (consumptions_until_error : nat)
      (sizes : option (list nat)) (pattern : option (list bool)) : state :=
    mk_ntc (public_into_vec_from_vec []) None (Some error) consumptions_until_error
      (match sizes with
       | Some sizes => match builder_sizes sizes with Some sizes => Some (sizes, 0) | None => None end
       | None => None
       end)
      (match pattern with Some p => Some (yielder_new (builder_yield_pattern p)) | None => None end).

  Definition ntc_maybe_yield (s : state) : outcome state :=
    let* y := maybe_yield (ntc_yielder s) in
    Ret (mk_ntc (ntc_inner s) (ntc_fin s) (ntc_error s) (ntc_left s) (ntc_sizes s) y).

  (** test_consumer.rs 332-338. *)
  Definition ntc_check_error (s : state) : outcome (state * option E) :=
    if ntc_left s =? 0 then
      let* err := expect (ntc_error s) in
      Ret (mk_ntc (ntc_inner s) (ntc_fin s) None (ntc_left s) (ntc_sizes s) (ntc_yielder s), Some err)
    else Ret (s, None).

  (** The [.unwrap()] on what the inner consumer answers. *)
  Definition unwrap_ok {X E'} (r : res X E') : outcome X :=
    match r with Ok x => Ret x | Err _ => Panic end.

  (** test_consumer.rs 366-373. *)
  Definition nested_tc_consume (item : T) (s : state) : outcome (state * res unit E) :=
    let* s := ntc_maybe_yield s in
    let* (s, e) := ntc_check_error s in
    match e with
    | Some err => Ret (s, Err err)
    | None =>
        let* (i, r) := c_consume inner item (ntc_inner s) in
        let* _ := unwrap_ok r in
        let* rem := csub (ntc_left s) 1 in
        Ret (mk_ntc i (ntc_fin s) (ntc_error s) rem (ntc_sizes s) (ntc_yielder s), Ok tt)
    end.

  (** test_consumer.rs 375-382. *)
  Definition nested_tc_close (fin : F) (s : state) : outcome (state * res unit E) :=
    let* s := ntc_maybe_yield s in
    let* (s, e) := ntc_check_error s in
    match e with
    | Some err => Ret (s, Err err)
    | None =>
        let* (i, r) := c_close inner tt (ntc_inner s) in
        let* _ := unwrap_ok r in
        Ret (mk_ntc i (Some fin) (ntc_error s) (ntc_left s) (ntc_sizes s) (ntc_yielder s), Ok tt)
    end.

  (** test_consumer.rs 386-392. *)
  Definition nested_tc_flush (s : state) : outcome (state * res unit E) :=
    let* s := ntc_maybe_yield s in
    let* (s, e) := ntc_check_error s in
    match e with
    | Some err => Ret (s, Err err)
    | None =>
        let* (i, r) := c_flush inner (ntc_inner s) in
        let* _ := unwrap_ok r in
        Ret (mk_ntc i (ntc_fin s) (ntc_error s) (ntc_left s) (ntc_sizes s) (ntc_yielder s), Ok tt)
    end.

  (** test_consumer.rs 417-419; [remaining_slots] and [make_space_even_if_not_needed] reach through the checker
      (into_vec.rs 112-120). *)
  Fixpoint ntc_grow (fuel min_len : nat) (i : invariant (into_vec T)) : outcome (invariant (into_vec T)) :=
    match fuel with
    | 0 => NoFuel
    | S fuel =>
        let* slots := into_vec_remaining_slots (inv_inner i) in
        if slots <? min_len then
          ntc_grow fuel min_len
            (mk_invariant (into_vec_make_space_even_if_not_needed default (inv_inner i)) (inv_active i) (inv_exposed i))
        else Ret i
    end.

  (** test_consumer.rs 399-428. *)
  Definition nested_tc_expose (s : state) : outcome (state * res nat E) :=
    let* s := ntc_maybe_yield s in
    let* (s, e) := ntc_check_error s in
    match e with
    | Some err => Ret (s, Err err)
    | None =>
        let* (max_len, sz) :=
          match ntc_sizes s with
          | None => Ret (None, None)
          | Some sz => let* (n, sz) := next_size sz in Ret (Some n, Some sz)
          end in
        let min_len := min_opt 2048 max_len in
        let* i := ntc_grow (min_len + 1) min_len (ntc_inner s) in
        let* (i, r) := c_expose inner i in
        let* slots := unwrap_ok r in
        let actual_len := Nat.min (min_opt slots max_len) (ntc_left s) in
        Ret (mk_ntc i (ntc_fin s) (ntc_error s) (ntc_left s) sz (ntc_yielder s), Ok actual_len)
    end.

  Definition nested_tc_write (ys : list T) (s : state) : state :=
    mk_ntc (c_write inner ys (ntc_inner s)) (ntc_fin s) (ntc_error s) (ntc_left s) (ntc_sizes s) (ntc_yielder s).

  (** test_consumer.rs 430-439. *)
  Definition nested_tc_consume_slots (amount : nat) (s : state) : outcome (state * res unit E) :=
    let* s := ntc_maybe_yield s in
    let* (s, e) := ntc_check_error s in
    match e with
    | Some err => Ret (s, Err err)
    | None =>
        let* (i, r) := c_consume_slots inner amount (ntc_inner s) in
        let* _ := unwrap_ok r in
        let* rem := csub (ntc_left s) amount in
        Ret (mk_ntc i (ntc_fin s) (ntc_error s) rem (ntc_sizes s) (ntc_yielder s), Ok tt)
    end.

  Definition nested_test_consumer : bulk_consumer state T F E :=
    bulk_consumer_of nested_tc_consume nested_tc_close nested_tc_flush nested_tc_expose
      nested_tc_write nested_tc_consume_slots.
End NestedTestConsumer.

(** Forgetting the inner checker. *)
Definition tp_erase {T F E} (s : nested_tp_state T F E) : test_producer_state T F E :=
  mk_tp (inv_inner (ntp_inner s)) (ntp_last s) (ntp_sizes s) (ntp_yielder s).
Definition tc_erase {T F E} (s : nested_tc_state T F E) : test_consumer_state T F E :=
  mk_tc (inv_inner (ntc_inner s)) (ntc_fin s) (ntc_error s) (ntc_left s) (ntc_sizes s) (ntc_yielder s).

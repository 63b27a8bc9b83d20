(** Model of the basic producers and consumers: FromSlice, FromBoxedSlice, Empty,
    IntoVec, TestYielder, TestProducer, TestConsumer.

    Paths are relative to ufotofu/src. The public types wrap these in the
    invariant checker, which does nothing outside of tests; the checker is
    modelled separately. None of these types overrides [bulk_produce] or
    [bulk_consume], so they get the defaults. *)
From Coq Require Import Bool List Arith.
From Verif Require Import Prelude Traits.
Import ListNotations.
Set Implicit Arguments.

(** Assembles a bulk producer with the default [bulk_produce]. *)
Definition bulk_producer_of {S T F E}
    (produce : S -> outcome (S * res (T + F) E))
    (slurp : S -> outcome (S * res unit E))
    (expose : S -> outcome (S * res (list T + F) E))
    (consider : nat -> S -> outcome (S * res unit E)) : bulk_producer S T F E :=
  mk_bulk_producer (mk_buffered_producer (mk_producer produce) slurp)
    expose consider (default_bulk_produce expose consider).

(** Assembles a bulk consumer with the default [bulk_consume]. *)
Definition bulk_consumer_of {S T F E}
    (consume : T -> S -> outcome (S * res unit E))
    (close : F -> S -> outcome (S * res unit E))
    (flush : S -> outcome (S * res unit E))
    (expose : S -> outcome (S * res nat E))
    (write : list T -> S -> S)
    (consume_slots : nat -> S -> outcome (S * res unit E)) : bulk_consumer S T F E :=
  mk_bulk_consumer (mk_buffered_consumer (mk_consumer consume close) flush)
    expose write consume_slots (default_bulk_consume expose write consume_slots).

(** ** FromSlice and FromBoxedSlice *)

(** [FromSlice], producer/from_slice.rs 144, and [FromBoxedSlice],
    producer/from_boxed_slice.rs 180, have the same fields and the same code. *)
Record from_slice (T : Type) : Type := mk_from_slice { fs_slice : list T; fs_offset : nat }.

Section FromSlice.
  Context {T : Type}.

  (** from_slice.rs 33-36, from_boxed_slice.rs 41-45, 63-67. *)
  Definition from_slice_new (l : list T) : from_slice T := mk_from_slice l 0.

  (** [offset], [produced_so_far], [not_yet_produced], [into_inner]: from_slice.rs 59-61,
      84-86, 109-111, 128-130; from_boxed_slice.rs 90-92, 115-117, 140-142, 159-161. *)
  Definition from_slice_produced_so_far (s : from_slice T) : outcome (list T) :=
    slice_to (fs_offset s) (fs_slice s).
  Definition from_slice_not_yet_produced (s : from_slice T) : outcome (list T) :=
    slice_from (fs_offset s) (fs_slice s).
  Definition from_slice_into_inner (s : from_slice T) : list T := fs_slice s.

  (** from_slice.rs 157-166, from_boxed_slice.rs 196-205. *)
  Definition from_slice_produce (s : from_slice T) : outcome (from_slice T * res (T + unit) infallible) :=
    if length (fs_slice s) =? fs_offset s then Ret (s, Ok (inr tt))
    else
      let* item := index (fs_offset s) (fs_slice s) in
      Ret (mk_from_slice (fs_slice s) (fs_offset s + 1), Ok (inl item)).

  (** from_slice.rs 170-173, from_boxed_slice.rs 209-212. *)
  Definition from_slice_slurp (s : from_slice T) : outcome (from_slice T * res unit infallible) :=
    Ret (s, Ok tt).

  (** from_slice.rs 177-189, from_boxed_slice.rs 216-228. *)
  Definition from_slice_expose (s : from_slice T) : outcome (from_slice T * res (list T + unit) infallible) :=
    let* rest := slice_from (fs_offset s) (fs_slice s) in
    match rest with
    | [] => Ret (s, Ok (inr tt))
    | _ => Ret (s, Ok (inl rest))
    end.

  (** from_slice.rs 191-195, from_boxed_slice.rs 230-234. *)
  Definition from_slice_consider (amount : nat) (s : from_slice T) : outcome (from_slice T * res unit infallible) :=
    Ret (mk_from_slice (fs_slice s) (fs_offset s + amount), Ok tt).

  Definition from_slice_producer : bulk_producer (from_slice T) T unit infallible :=
    bulk_producer_of from_slice_produce from_slice_slurp from_slice_expose from_slice_consider.
End FromSlice.

(** ** Empty *)
Section Empty.
  Context {T F E : Type}.

  (** producer/empty.rs 30-36, 46-49; the state is the field [fin]. *)
  Definition empty_new (fin : F) : option F := Some fin.

  (** empty.rs 62-66. *)
  Definition empty_produce (s : option F) : outcome (option F * res (T + F) E) :=
    let* fin := expect s in Ret (None, Ok (inr fin)).

  (** empty.rs 70-73. *)
  Definition empty_slurp (s : option F) : outcome (option F * res unit E) := Ret (s, Ok tt).

  (** empty.rs 77-86. *)
  Definition empty_expose (s : option F) : outcome (option F * res (list T + F) E) :=
    let* fin := expect s in Ret (None, Ok (inr fin)).

  (** empty.rs 88-90. *)
  Definition empty_consider (amount : nat) (s : option F) : outcome (option F * res unit E) := Ret (s, Ok tt).

  Definition empty_producer : bulk_producer (option F) T F E :=
    bulk_producer_of empty_produce empty_slurp empty_expose empty_consider.
End Empty.

(** ** IntoVec *)

(** consumer/into_vec.rs 129-132. *)
Record into_vec (T : Type) : Type := mk_into_vec { iv_v : list T; iv_consumed : nat }.

Section IntoVec.
  Context {T : Type} (default : T).

  (** [Vec::resize_with(n, Default::default)]. *)
  Definition resize_default (n : nat) (v : list T) : list T :=
    firstn n v ++ repeat default (n - length v).

  (** [new], [with_capacity], [from_vec]: into_vec.rs 41-43, 62-64, 83-90. For the
      capacities of vectors see MemoryModel.v. *)
  Definition into_vec_from_vec (v : list T) : into_vec T := mk_into_vec v (length v).
  Definition into_vec_new : into_vec T := into_vec_from_vec [].
  Definition into_vec_with_capacity (capacity : nat) : into_vec T := into_vec_from_vec [].

  (** [as_ref], into_vec.rs 135-137. *)
  Definition into_vec_as_ref (s : into_vec T) : outcome (list T) := slice_to (iv_consumed s) (iv_v s).

  (** [into_vec], into_vec.rs 142-146; [truncate] does nothing on shorter vectors. *)
  Definition into_vec_into_vec (s : into_vec T) : list T := firstn (iv_consumed s) (iv_v s).

  (** into_vec.rs 150-155. *)
  Definition into_vec_make_space_if_needed (s : into_vec T) : into_vec T :=
    if iv_consumed s =? length (iv_v s)
    then mk_into_vec (resize_default (iv_consumed s * 2 + 1) (iv_v s)) (iv_consumed s)
    else s.

  (** into_vec.rs 157-159. *)
  Definition into_vec_make_space_even_if_not_needed (s : into_vec T) : into_vec T :=
    mk_into_vec (resize_default (length (iv_v s) * 2 + 1) (iv_v s)) (iv_consumed s).

  (** into_vec.rs 161-163. *)
  Definition into_vec_remaining_slots (s : into_vec T) : outcome nat :=
    csub (length (iv_v s)) (iv_consumed s).

  (** into_vec.rs 171-179. *)
  Definition into_vec_consume (item : T) (s : into_vec T) : outcome (into_vec T * res unit infallible) :=
    let s := into_vec_make_space_if_needed s in
    let* v := index_set (iv_consumed s) item (iv_v s) in
    Ret (mk_into_vec v (iv_consumed s + 1), Ok tt).

  (** into_vec.rs 181-183. *)
  Definition into_vec_close (fin : unit) (s : into_vec T) : outcome (into_vec T * res unit infallible) :=
    Ret (s, Ok tt).

  (** into_vec.rs 187-189. *)
  Definition into_vec_flush (s : into_vec T) : outcome (into_vec T * res unit infallible) := Ret (s, Ok tt).

  (** into_vec.rs 193-201. *)
  Definition into_vec_expose (s : into_vec T) : outcome (into_vec T * res nat infallible) :=
    let s := into_vec_make_space_if_needed s in
    let* slots := slice_from (iv_consumed s) (iv_v s) in
    Ret (s, Ok (length slots)).

  (** The caller writing into [v[consumed..]]. *)
  Definition into_vec_write (ys : list T) (s : into_vec T) : into_vec T :=
    mk_into_vec (blit (iv_consumed s) ys (iv_v s)) (iv_consumed s).

  (** into_vec.rs 203-207. *)
  Definition into_vec_consume_slots (amount : nat) (s : into_vec T) : outcome (into_vec T * res unit infallible) :=
    Ret (mk_into_vec (iv_v s) (iv_consumed s + amount), Ok tt).

  Definition into_vec_consumer : bulk_consumer (into_vec T) T unit infallible :=
    bulk_consumer_of into_vec_consume into_vec_close into_vec_flush into_vec_expose into_vec_write
      into_vec_consume_slots.
End IntoVec.

(** ** TestYielder *)

(** test_yielder.rs 14-17. *)
Record yielder : Type := mk_yielder { y_pattern : list bool; y_index : nat }.

(** test_yielder.rs 20-34. *)
Definition yielder_new (pattern : list bool) : yielder :=
  if forallb (fun b => b) pattern then mk_yielder (pattern ++ [false]) 0 else mk_yielder pattern 0.

(** [MaybeYield::poll], test_yielder.rs 61-71: [true] stands for [Poll::Ready]. Waking the task
    is not modelled. *)
Definition yielder_poll (y : yielder) : outcome (yielder * bool) :=
  let* do_yield := index (y_index y) (y_pattern y) in
  let* i := cmod (y_index y + 1) (length (y_pattern y)) in
  Ret (mk_yielder (y_pattern y) i, negb do_yield).

(** Awaiting [maybe_yield] (36-39): the executor polls until the future is ready. *)
Fixpoint yielder_await (fuel : nat) (y : yielder) : outcome yielder :=
  match fuel with
  | 0 => NoFuel
  | S fuel =>
      let* (y, ready) := yielder_poll y in
      if ready then Ret y else yielder_await fuel y
  end.

(** [maybe_yield] of the test producer and consumer (producer/test_producer.rs 326-331,
    consumer/test_consumer.rs 340-345). The number of polls allowed is the length of the
    pattern; that this is enough is proved. *)
Definition maybe_yield (y : option yielder) : outcome (option yielder) :=
  match y with
  | None => Ret None
  | Some y => let* y := yielder_await (length (y_pattern y)) y in Ret (Some y)
  end.

(** The [yield_pattern] builder methods append [false] in the same way (test_producer.rs
    260-272, test_consumer.rs 260-272), before [build] passes the result to [yielder_new]. *)
Definition builder_yield_pattern (pattern : list bool) : list bool :=
  if forallb (fun b => b) pattern then pattern ++ [false] else pattern.

(** The [exposed_items_sizes]/[exposed_slot_sizes] builder methods ignore an empty list
    (test_producer.rs 247-255, test_consumer.rs 247-255). Entries are [NonZeroUsize]. *)
Definition builder_sizes (sizes : list nat) : option (list nat) :=
  if 0 <? length sizes then Some sizes else None.

(** Taking the next size and advancing cyclically (test_producer.rs 391-393, test_consumer.rs
    409-411). *)
Definition next_size (sz : list nat * nat) : outcome (nat * (list nat * nat)) :=
  let* n := index (snd sz) (fst sz) in
  let* i := cmod (snd sz + 1) (length (fst sz)) in
  Ret (n, (fst sz, i)).

(** ** TestProducer *)

(** producer/test_producer.rs 302-307. *)
Record test_producer_state (T F E : Type) : Type := mk_tp {
  tp_inner : from_slice T;
  tp_last : option (res F E);
  tp_sizes : option (list nat * nat);
  tp_yielder : option yielder
}.

Section TestProducer.
  Context {T F E : Type}.
  Notation state := (test_producer_state T F E).

  (** [TestProducerBuilder::new(items, last)] followed by the optional builder calls and
      [build], test_producer.rs 216-223, 247-255, 260-272, 291-298. *)
  Definition test_producer_build (items : list T) (last : res F E)
      (sizes : option (list nat)) (pattern : option (list bool)) : state :=
    mk_tp (from_slice_new items) (Some last)
      (match sizes with
       | Some sizes => match builder_sizes sizes with Some sizes => Some (sizes, 0) | None => None end
       | None => None
       end)
      (match pattern with Some p => Some (yielder_new (builder_yield_pattern p)) | None => None end).

  (** [remaining], [into_data], [peek_last], [did_already_emit_last]: test_producer.rs 310-324. *)
  Definition test_producer_remaining (s : state) : outcome (list T) :=
    from_slice_not_yet_produced (tp_inner s).
  Definition test_producer_into_data (s : state) : list T * option (res F E) :=
    (from_slice_into_inner (tp_inner s), tp_last s).
  Definition test_producer_peek_last (s : state) : option (res F E) := tp_last s.
  Definition test_producer_did_already_emit_last (s : state) : bool :=
    match tp_last s with None => true | Some _ => false end.

  (** [self.maybe_yield().await] *)
  Definition tp_maybe_yield (s : state) : outcome state :=
    let* y := maybe_yield (tp_yielder s) in
    Ret (mk_tp (tp_inner s) (tp_last s) (tp_sizes s) y).

  (** [self.last.take().unwrap()] *)
  Definition tp_take_last (s : state) : outcome (state * res F E) :=
    let* last := expect (tp_last s) in
    Ret (mk_tp (tp_inner s) None (tp_sizes s) (tp_yielder s), last).

  (** [.unwrap()] of a call on the infallible inner producer, then [.unwrap_left()]. *)
  Definition unwrap_left {X Y E'} (r : res (X + Y) E') : outcome X :=
    match r with Ok (inl x) => Ret x | _ => Panic end.

  Definition set_inner (i : from_slice T) (s : state) : state :=
    mk_tp i (tp_last s) (tp_sizes s) (tp_yielder s).

  (** test_producer.rs 339-351. *)
  Definition test_producer_produce (s : state) : outcome (state * res (T + F) E) :=
    let* s := tp_maybe_yield s in
    let* rest := from_slice_not_yet_produced (tp_inner s) in
    match rest with
    | [] =>
        let* (s, last) := tp_take_last s in
        match last with Ok fin => Ret (s, Ok (inr fin)) | Err err => Ret (s, Err err) end
    | _ =>
        let* (i, r) := from_slice_produce (tp_inner s) in
        let* item := unwrap_left r in
        Ret (set_inner i s, Ok (inl item))
    end.

  (** The common prologue of [slurp] and [consider_produced]: emit an error that is due. *)
  Definition tp_check_error (s : state) : outcome (state * option E) :=
    let* rest := from_slice_not_yet_produced (tp_inner s) in
    match rest with
    | [] =>
        let* last := expect (tp_last s) in
        match last with
        | Ok _ => Ret (s, None)
        | Err err => Ret (mk_tp (tp_inner s) None (tp_sizes s) (tp_yielder s), Some err)
        end
    | _ => Ret (s, None)
    end.

  (** test_producer.rs 355-366. *)
  Definition test_producer_slurp (s : state) : outcome (state * res unit E) :=
    let* s := tp_maybe_yield s in
    let* (s, e) := tp_check_error s in
    match e with Some err => Ret (s, Err err) | None => Ret (s, Ok tt) end.

  (** test_producer.rs 370-405. *)
  Definition test_producer_expose (s : state) : outcome (state * res (list T + F) E) :=
    let* s := tp_maybe_yield s in
    let* rest := from_slice_not_yet_produced (tp_inner s) in
    match rest with
    | [] =>
        let* (s, last) := tp_take_last s in
        match last with Ok fin => Ret (s, Ok (inr fin)) | Err err => Ret (s, Err err) end
    | _ =>
        match tp_sizes s with
        | None =>
            let* (i, r) := from_slice_expose (tp_inner s) in
            let* items := unwrap_left r in
            Ret (set_inner i s, Ok (inl items))
        | Some sz =>
            let* (max_len, sz) := next_size sz in
            let* (i, r) := from_slice_expose (tp_inner s) in
            let* items := unwrap_left r in
            let actual_len := Nat.min (length items) max_len in
            let* items := slice_to actual_len items in
            Ret (mk_tp i (tp_last s) (Some sz) (tp_yielder s), Ok (inl items))
        end
    end.

  (** test_producer.rs 407-423. *)
  Definition test_producer_consider (amount : nat) (s : state) : outcome (state * res unit E) :=
    let* s := tp_maybe_yield s in
    let* (s, e) := tp_check_error s in
    match e with
    | Some err => Ret (s, Err err)
    | None =>
        let* (i, r) := from_slice_consider amount (tp_inner s) in
        Ret (set_inner i s, Ok tt)
    end.

  Definition test_producer : bulk_producer state T F E :=
    bulk_producer_of test_producer_produce test_producer_slurp test_producer_expose test_producer_consider.
End TestProducer.

(** ** TestConsumer *)

(** consumer/test_consumer.rs 302-309. *)
Record test_consumer_state (T F E : Type) : Type := mk_tc {
  tc_inner : into_vec T;
  tc_fin : option F;
  tc_error : option E;
  tc_left : nat;  (* consumptions_until_error *)
  tc_sizes : option (list nat * nat);
  tc_yielder : option yielder
}.

Section TestConsumer.
  Context {T F E : Type} (default : T).
  Notation state := (test_consumer_state T F E).

  (** [TestConsumerBuilder::new(error, consumptions_until_error)], the optional builder calls,
      [build]: test_consumer.rs 218-225, 247-255, 260-272, 289-298. *)
  Definition test_consumer_build (error : E) (consumptions_until_error : nat)
      (sizes : option (list nat)) (pattern : option (list bool)) : state :=
    mk_tc (@into_vec_new T) None (Some error) consumptions_until_error
      (match sizes with
       | Some sizes => match builder_sizes sizes with Some sizes => Some (sizes, 0) | None => None end
       | None => None
       end)
      (match pattern with Some p => Some (yielder_new (builder_yield_pattern p)) | None => None end).

  (** [consumed], [final_consumed], [into_consumed], [peek_error], [did_error]:
      test_consumer.rs 312-330. *)
  Definition test_consumer_consumed (s : state) : outcome (list T) := into_vec_as_ref (tc_inner s).
  Definition test_consumer_final_consumed (s : state) : option F := tc_fin s.
  Definition test_consumer_into_consumed (s : state) : list T * option F :=
    (into_vec_into_vec (tc_inner s), tc_fin s).
  Definition test_consumer_peek_error (s : state) : option E := tc_error s.
  Definition test_consumer_did_error (s : state) : bool :=
    match tc_error s with None => true | Some _ => false end.

  Definition tc_maybe_yield (s : state) : outcome state :=
    let* y := maybe_yield (tc_yielder s) in
    Ret (mk_tc (tc_inner s) (tc_fin s) (tc_error s) (tc_left s) (tc_sizes s) y).

  (** [check_error], test_consumer.rs 332-338. *)
  Definition tc_check_error (s : state) : outcome (state * option E) :=
    if tc_left s =? 0 then
      let* err := expect (tc_error s) in
      Ret (mk_tc (tc_inner s) (tc_fin s) None (tc_left s) (tc_sizes s) (tc_yielder s), Some err)
    else Ret (s, None).

  (** test_consumer.rs 366-373. *)
  Definition test_consumer_consume (item : T) (s : state) : outcome (state * res unit E) :=
    let* s := tc_maybe_yield s in
    let* (s, e) := tc_check_error s in
    match e with
    | Some err => Ret (s, Err err)
    | None =>
        let* (i, r) := into_vec_consume default item (tc_inner s) in
        let* rem := csub (tc_left s) 1 in
        Ret (mk_tc i (tc_fin s) (tc_error s) rem (tc_sizes s) (tc_yielder s), Ok tt)
    end.

  (** test_consumer.rs 375-382. *)
  Definition test_consumer_close (fin : F) (s : state) : outcome (state * res unit E) :=
    let* s := tc_maybe_yield s in
    let* (s, e) := tc_check_error s in
    match e with
    | Some err => Ret (s, Err err)
    | None =>
        let* (i, r) := into_vec_close tt (tc_inner s) in
        Ret (mk_tc i (Some fin) (tc_error s) (tc_left s) (tc_sizes s) (tc_yielder s), Ok tt)
    end.

  (** test_consumer.rs 386-392. *)
  Definition test_consumer_flush (s : state) : outcome (state * res unit E) :=
    let* s := tc_maybe_yield s in
    let* (s, e) := tc_check_error s in
    match e with
    | Some err => Ret (s, Err err)
    | None =>
        let* (i, r) := into_vec_flush (tc_inner s) in
        Ret (mk_tc i (tc_fin s) (tc_error s) (tc_left s) (tc_sizes s) (tc_yielder s), Ok tt)
    end.

  (** The [while] loop of [expose_slots], test_consumer.rs 417-419. *)
  Fixpoint tc_grow (fuel min_len : nat) (i : into_vec T) : outcome (into_vec T) :=
    match fuel with
    | 0 => NoFuel
    | S fuel =>
        let* slots := into_vec_remaining_slots i in
        if slots <? min_len then tc_grow fuel min_len (into_vec_make_space_even_if_not_needed default i)
        else Ret i
    end.

  (** [usize::MAX] is modelled as [None]. *)
  Definition min_opt (n : nat) (m : option nat) : nat :=
    match m with Some m => Nat.min n m | None => n end.

  (** test_consumer.rs 399-428; the loop is given [min_len + 1] rounds, which is proved to be
      enough. *)
  Definition test_consumer_expose (s : state) : outcome (state * res nat E) :=
    let* s := tc_maybe_yield s in
    let* (s, e) := tc_check_error s in
    match e with
    | Some err => Ret (s, Err err)
    | None =>
        let* (max_len, sz) :=
          match tc_sizes s with
          | None => Ret (None, None)
          | Some sz => let* (n, sz) := next_size sz in Ret (Some n, Some sz)
          end in
        let min_len := min_opt 2048 max_len in
        let* i := tc_grow (min_len + 1) min_len (tc_inner s) in
        let* (i, r) := into_vec_expose default i in
        match r with
        | Ok slots =>
            let actual_len := Nat.min (min_opt slots max_len) (tc_left s) in
            Ret (mk_tc i (tc_fin s) (tc_error s) (tc_left s) sz (tc_yielder s), Ok actual_len)
        | Err _ => Panic
        end
    end.

  Definition test_consumer_write (ys : list T) (s : state) : state :=
    mk_tc (into_vec_write ys (tc_inner s)) (tc_fin s) (tc_error s) (tc_left s) (tc_sizes s) (tc_yielder s).

  (** test_consumer.rs 430-439. *)
  Definition test_consumer_consume_slots (amount : nat) (s : state) : outcome (state * res unit E) :=
    let* s := tc_maybe_yield s in
    let* (s, e) := tc_check_error s in
    match e with
    | Some err => Ret (s, Err err)
    | None =>
        let* (i, r) := into_vec_consume_slots amount (tc_inner s) in
        let* rem := csub (tc_left s) amount in
        Ret (mk_tc i (tc_fin s) (tc_error s) rem (tc_sizes s) (tc_yielder s), Ok tt)
    end.

  Definition test_consumer : bulk_consumer state T F E :=
    bulk_consumer_of test_consumer_consume test_consumer_close test_consumer_flush test_consumer_expose
      test_consumer_write test_consumer_consume_slots.
End TestConsumer.

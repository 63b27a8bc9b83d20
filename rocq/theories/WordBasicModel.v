(** The rest of the library with the arithmetic of machine words (the queues are in WordModel).

    Every [+], [+=], [*], [-] and [-=] on [usize] in ufotofu/src, outside of tests, is here, as the operation of Rust: with
    overflow checks ([checked = true], debug profile) leaving the range panics, without them ([checked = false],
    release profile) the result wraps around. Paths are relative to ufotofu/src.

    Simplifications: as in BasicModel, AdaptorModel, SliceModel and Traits. [min], [%], comparisons and the counters of [for]
    loops do not leave the range and are those of the numbers. What [TestConsumer] and [TestProducer] contain (IntoVec, FromSlice, TestYielder) is
    modelled on its own; so are the indices of the scramblers. *)
From Coq Require Import Bool List Arith.
From Verif Require Import Prelude Traits BasicModel AdaptorModel SliceModel QueueModel ScramblerModel WordModel.
Import ListNotations.
Set Implicit Arguments.

Section Words.
  Context (W : nat) (checked : bool).

  (** [a * 2] on [usize], for [a < W]. *)
  Definition wdouble (a : nat) : outcome nat := wadd W checked a a.

  (** ** FromSlice and FromBoxedSlice *)
  Section FromSlice.
    Context {T : Type}.

    (** producer/from_slice.rs 157-166, producer/from_boxed_slice.rs 196-205. *)
    Definition word_from_slice_produce (s : from_slice T) : outcome (from_slice T * res (T + unit) infallible) :=
      if length (fs_slice s) =? fs_offset s then Ret (s, Ok (inr tt))
      else
        let* item := index (fs_offset s) (fs_slice s) in
        let* offset := wadd W checked (fs_offset s) 1 in
        Ret (mk_from_slice (fs_slice s) offset, Ok (inl item)).

    (** from_slice.rs 191-195, from_boxed_slice.rs 230-234. *)
    Definition word_from_slice_consider (amount : nat) (s : from_slice T)
      : outcome (from_slice T * res unit infallible) :=
      let* offset := wadd W checked (fs_offset s) amount in
      Ret (mk_from_slice (fs_slice s) offset, Ok tt).

    Definition word_from_slice : bulk_producer (from_slice T) T unit infallible :=
      bulk_producer_of word_from_slice_produce (@from_slice_slurp T) (@from_slice_expose T) word_from_slice_consider.
  End FromSlice.

  (** ** IntoSlice *)
  Section IntoSlice.
    Context {T : Type}.

    (** consumer/into_slice.rs 88-98. *)
    Definition word_into_slice_consume (item : T) (s : into_slice T) : outcome (into_slice T * res unit unit) :=
      if length (is_slice s) =? is_offset s then Ret (s, Err tt)
      else
        let* v := index_set (is_offset s) item (is_slice s) in
        let* offset := wadd W checked (is_offset s) 1 in
        Ret (mk_into_slice v offset, Ok tt).

    (** into_slice.rs 121-125. *)
    Definition word_into_slice_consume_slots (amount : nat) (s : into_slice T)
      : outcome (into_slice T * res unit unit) :=
      let* offset := wadd W checked (is_offset s) amount in
      Ret (mk_into_slice (is_slice s) offset, Ok tt).

    Definition word_into_slice : bulk_consumer (into_slice T) T unit unit :=
      bulk_consumer_of word_into_slice_consume (@into_slice_close T) (@into_slice_flush T) (@into_slice_expose T)
        (@into_slice_write T) word_into_slice_consume_slots.
  End IntoSlice.

  (** ** IntoVec *)
  Section IntoVec.
    (** [max_len] is the number of items that a vector can hold: [isize::MAX] divided by the size of an item, or
        [usize::MAX] for items of size zero. *)
    Context {T : Type} (default : T) (max_len : nat).

    (** [Vec::resize_with(n, Default::default)]: it panics with "capacity overflow" instead of
        exceeding [max_len], and truncates if [n] is less than the length. *)
    Definition word_resize_default (n : nat) (v : list T) : outcome (list T) :=
      if n <=? max_len then Ret (resize_default default n v) else Panic.

    (** consumer/into_vec.rs 150-155. *)
    Definition word_make_space_if_needed (s : into_vec T) : outcome (into_vec T) :=
      if iv_consumed s =? length (iv_v s) then
        let* n := wdouble (iv_consumed s) in
        let* n := wadd W checked n 1 in
        let* v := word_resize_default n (iv_v s) in
        Ret (mk_into_vec v (iv_consumed s))
      else Ret s.

    (** into_vec.rs 157-159. *)
    Definition word_make_space_even_if_not_needed (s : into_vec T) : outcome (into_vec T) :=
      let* n := wdouble (length (iv_v s)) in
      let* n := wadd W checked n 1 in
      let* v := word_resize_default n (iv_v s) in
      Ret (mk_into_vec v (iv_consumed s)).

    (** into_vec.rs 161-163. *)
    Definition word_remaining_slots (s : into_vec T) : outcome nat :=
      wsub W checked (length (iv_v s)) (iv_consumed s).

    (** into_vec.rs 171-179. *)
    Definition word_into_vec_consume (item : T) (s : into_vec T) : outcome (into_vec T * res unit infallible) :=
      let* s := word_make_space_if_needed s in
      let* v := index_set (iv_consumed s) item (iv_v s) in
      let* consumed := wadd W checked (iv_consumed s) 1 in
      Ret (mk_into_vec v consumed, Ok tt).

    (** into_vec.rs 193-201. *)
    Definition word_into_vec_expose (s : into_vec T) : outcome (into_vec T * res nat infallible) :=
      let* s := word_make_space_if_needed s in
      let* slots := slice_from (iv_consumed s) (iv_v s) in
      Ret (s, Ok (length slots)).

    (** into_vec.rs 203-207. *)
    Definition word_into_vec_consume_slots (amount : nat) (s : into_vec T)
      : outcome (into_vec T * res unit infallible) :=
      let* consumed := wadd W checked (iv_consumed s) amount in
      Ret (mk_into_vec (iv_v s) consumed, Ok tt).

    Definition word_into_vec : bulk_consumer (into_vec T) T unit infallible :=
      bulk_consumer_of word_into_vec_consume (@into_vec_close T) (@into_vec_flush T) word_into_vec_expose
        (@into_vec_write T) word_into_vec_consume_slots.
  End IntoVec.

  (** ** Limit *)
  Section Limit.
    Context {S T F E : Type}.

    (** producer/limit.rs 91-94. [produce] uses [checked_sub]. *)
    Definition word_limit_consider (P : bulk_producer S T F E) (amount : nat) (s : limit S)
      : outcome (limit S * res unit E) :=
      let* remaining := wsub W checked (lim_remaining s) amount in
      let* (i, r) := p_consider P amount (lim_inner s) in
      Ret (mk_limit i remaining, r).

    Definition word_limit_producer (P : bulk_producer S T F E) : bulk_producer (limit S) T (option F) E :=
      bulk_producer_of (limit_produce P) (limit_slurp P) (limit_expose P) (word_limit_consider P).

    (** consumer/limit.rs 79-82. *)
    Definition word_limit_consume_slots (C : bulk_consumer S T F E) (amount : nat) (s : limit S)
      : outcome (limit S * res unit (option E)) :=
      let* remaining := wsub W checked (lim_remaining s) amount in
      let* (i, r) := c_consume_slots C amount (lim_inner s) in
      Ret (mk_limit i remaining, map_err Some r).

    Definition word_limit_consumer (C : bulk_consumer S T F E) : bulk_consumer (limit S) T F (option E) :=
      bulk_consumer_of (limit_consume C) (limit_close C) (limit_flush C) (limit_expose_slots C)
        (limit_write C) (word_limit_consume_slots C).

    (** ** The checker of the invariants *)

    (** producer/invariant.rs 136-147. *)
    Definition word_invariant_consider (P : bulk_producer S T F E) (amount : nat) (s : invariant S)
      : outcome (invariant S * res unit E) :=
      inv_check s (
        if inv_exposed s <? amount then Panic
        else
          let* exposed := wsub W checked (inv_exposed s) amount in
          let* (i, r) := p_consider P amount (inv_inner s) in
          Ret (mk_invariant i (inv_active s) exposed, r)).

    (** consumer/invariant.rs 138-151. *)
    Definition word_invariant_consume_slots (C : bulk_consumer S T F E) (amount : nat) (s : invariant S)
      : outcome (invariant S * res unit E) :=
      inv_check s (
        if inv_exposed s <? amount then Panic
        else
          let* exposed := wsub W checked (inv_exposed s) amount in
          let* (i, r) := c_consume_slots C amount (inv_inner s) in
          Ret (mk_invariant i (inv_active s) exposed, r)).
  End Limit.

  (** ** Round-robin indices *)

  (** [MaybeYield::poll], test_yielder.rs 61-71. *)
  Definition word_yielder_poll (y : yielder) : outcome (yielder * bool) :=
    let* do_yield := index (y_index y) (y_pattern y) in
    let* next := wadd W checked (y_index y) 1 in
    let* i := cmod next (length (y_pattern y)) in
    Ret (mk_yielder (y_pattern y) i, negb do_yield).

  (** The sizes of exposed slices: producer/test_producer.rs 391-393, consumer/test_consumer.rs 409-411. *)
  Definition word_next_size (sz : list nat * nat) : outcome (nat * (list nat * nat)) :=
    let* n := index (snd sz) (fst sz) in
    let* next := wadd W checked (snd sz) 1 in
    let* i := cmod next (length (fst sz)) in
    Ret (n, (fst sz, i)).

  (** producer/bulk_scrambler.rs 138-140, consumer/bulk_scrambler.rs 135-137. Both are called after the operation at
      the index was read. *)
  Definition word_pscr_advance {S T F E} (s : pscr S T F E) : outcome (pscr S T F E) :=
    let* next := wadd W checked (ps_index s) 1 in
    let* i := cmod next (length (ps_operations s)) in
    Ret (mk_pscr (ps_inner s) (ps_buffer s) (ps_last s) (ps_operations s) i).
  Definition word_cscr_advance {S T} (s : cscr S T) : outcome (cscr S T) :=
    let* next := wadd W checked (cs_index s) 1 in
    let* i := cmod next (length (cs_operations s)) in
    Ret (mk_cscr (cs_inner s) (cs_buffer s) (cs_operations s) i).

  (** ** The countdown of TestConsumer *)

  (** [self.consumptions_until_error -= amount], consumer/test_consumer.rs 366-373 and 430-439; the inner [IntoVec] as
      before. *)
  Section TestConsumer.
    Context {T F E : Type} (default : T).
    Notation state := (test_consumer_state T F E).

    Definition word_test_consumer_consume (item : T) (s : state) : outcome (state * res unit E) :=
      let* s := tc_maybe_yield s in
      let* (s, e) := tc_check_error s in
      match e with
      | Some err => Ret (s, Err err)
      | None =>
          let* (i, r) := into_vec_consume default item (tc_inner s) in
          let* rem := wsub W checked (tc_left s) 1 in
          Ret (mk_tc i (tc_fin s) (tc_error s) rem (tc_sizes s) (tc_yielder s), Ok tt)
      end.

    Definition word_test_consumer_consume_slots (amount : nat) (s : state) : outcome (state * res unit E) :=
      let* s := tc_maybe_yield s in
      let* (s, e) := tc_check_error s in
      match e with
      | Some err => Ret (s, Err err)
      | None =>
          let* (i, r) := into_vec_consume_slots amount (tc_inner s) in
          let* rem := wsub W checked (tc_left s) amount in
          Ret (mk_tc i (tc_fin s) (tc_error s) rem (tc_sizes s) (tc_yielder s), Ok tt)
      end.

    (** The loop of [expose_slots], test_consumer.rs 417-419, with the vector of [IntoVec] in words. *)
    Fixpoint word_tc_grow (max_len fuel min_len : nat) (i : into_vec T) : outcome (into_vec T) :=
      match fuel with
      | 0 => NoFuel
      | S fuel =>
          let* slots := word_remaining_slots i in
          if slots <? min_len then let* i := word_make_space_even_if_not_needed default max_len i in word_tc_grow max_len fuel min_len i
          else Ret i
      end.

    (** test_consumer.rs 399-428, with the vector and the index of the sizes in words. *)
    Definition word_test_consumer_expose (max_len : nat) (s : state) : outcome (state * res nat E) :=
      let* s := tc_maybe_yield s in
      let* (s, e) := tc_check_error s in
      match e with
      | Some err => Ret (s, Err err)
      | None =>
          let* (size, sz) :=
            match tc_sizes s with
            | None => Ret (None, None)
            | Some sz => let* (n, sz) := word_next_size sz in Ret (Some n, Some sz)
            end in
          let min_len := min_opt 2048 size in
          let* i := word_tc_grow max_len (min_len + 1) min_len (tc_inner s) in
          let* (i, r) := word_into_vec_expose default max_len i in
          match r with
          | Ok slots =>
              let actual_len := Nat.min (min_opt slots size) (tc_left s) in
              Ret (mk_tc i (tc_fin s) (tc_error s) (tc_left s) sz (tc_yielder s), Ok actual_len)
          | Err _ => Panic
          end
      end.

    Definition word_test_consumer : bulk_consumer state T F E :=
      bulk_consumer_of word_test_consumer_consume (@test_consumer_close T F E) (@test_consumer_flush T F E)
        (@test_consumer_expose T F E default) (@test_consumer_write T F E) word_test_consumer_consume_slots.
  End TestConsumer.

  (** ** Full slices and pipes *)
  Section Loops.
    Context {S T F E : Type}.

    (** [BulkConsumer::bulk_consume_full_slice], lib.rs 269-293. *)
    Fixpoint word_bulk_consume_full_slice_loop (fuel : nat) (C : bulk_consumer S T F E)
        (consumed_so_far : nat) (buf : list T) (s : S) : outcome (S * res unit (consume_at_least_error E)) :=
      match fuel with
      | 0 => NoFuel
      | Datatypes.S fuel =>
          if consumed_so_far <? length buf then
            let* rest := slice_from consumed_so_far buf in
            let* (s, r) := c_bulk_consume C rest s in
            match r with
            | Ok consumed_count =>
                let* consumed_so_far := wadd W checked consumed_so_far consumed_count in
                word_bulk_consume_full_slice_loop fuel C consumed_so_far buf s
            | Err err => Ret (s, Err (mk_cale consumed_so_far err))
            end
          else Ret (s, Ok tt)
      end.

    Definition word_bulk_consume_full_slice (fuel : nat) (C : bulk_consumer S T F E) (buf : list T) (s : S) :=
      word_bulk_consume_full_slice_loop fuel C 0 buf s.

    (** [BulkProducer::bulk_overwrite_full_slice], lib.rs 506-536. *)
    Fixpoint word_bulk_overwrite_full_slice_loop (fuel : nat) (P : bulk_producer S T F E)
        (produced_so_far : nat) (buf : list T) (s : S)
      : outcome (S * (list T * res unit (produce_at_least_error F E))) :=
      match fuel with
      | 0 => NoFuel
      | Datatypes.S fuel =>
          if produced_so_far <? length buf then
            let* rest := slice_from produced_so_far buf in
            let* (s, (rest, r)) := p_bulk_produce P rest s in
            let buf := firstn produced_so_far buf ++ rest in
            match r with
            | Ok (inl count) =>
                let* produced_so_far := wadd W checked produced_so_far count in
                word_bulk_overwrite_full_slice_loop fuel P produced_so_far buf s
            | Ok (inr fin) => Ret (s, (buf, Err (mk_pale produced_so_far (inl fin))))
            | Err err => Ret (s, (buf, Err (mk_pale produced_so_far (inr err))))
            end
          else Ret (s, (buf, Ok tt))
      end.

    Definition word_bulk_overwrite_full_slice (fuel : nat) (P : bulk_producer S T F E) (buf : list T) (s : S) :=
      word_bulk_overwrite_full_slice_loop fuel P 0 buf s.
  End Loops.

  Section Pipes.
    Context {SP SC T F PE CE : Type}.

    (** [pipe_at_most], lib.rs 620-658, with the condition of its loop. *)
    Fixpoint word_pipe_at_most_loop (fuel : nat) (P : producer SP T F PE) (C : consumer SC T F CE)
        (count piped : nat) (sp : SP) (sc : SC) : outcome (SP * SC * res nat (pipe_error PE CE)) :=
      match fuel with
      | 0 => NoFuel
      | S fuel =>
          if piped <? count then
            let* (sp, r) := p_produce P sp in
            match r with
            | Ok (inl item) =>
                let* (sc, rc) := c_consume C item sc in
                match rc with
                | Ok tt =>
                    let* piped := wadd W checked piped 1 in
                    word_pipe_at_most_loop fuel P C count piped sp sc
                | Err consumer_error => Ret (sp, sc, Err (PipeConsumer consumer_error))
                end
            | Ok (inr final_value) =>
                let* (sc, rc) := c_close C final_value sc in
                match rc with
                | Ok tt => Ret (sp, sc, Ok piped)
                | Err consumer_error => Ret (sp, sc, Err (PipeConsumer consumer_error))
                end
            | Err producer_error => Ret (sp, sc, Err (PipeProducer producer_error))
            end
          else Ret (sp, sc, Ok piped)
      end.

    Definition word_pipe_at_most (fuel : nat) (P : producer SP T F PE) (C : consumer SC T F CE) (count : nat)
        (sp : SP) (sc : SC) := word_pipe_at_most_loop fuel P C count 0 sp sc.

    (** [bulk_pipe_at_most], lib.rs 665-705. *)
    Fixpoint word_bulk_pipe_at_most_loop (fuel : nat) (P : bulk_producer SP T F PE)
        (C : bulk_consumer SC T F CE) (count piped : nat) (sp : SP) (sc : SC)
      : outcome (SP * SC * res nat (pipe_error PE CE)) :=
      match fuel with
      | 0 => NoFuel
      | S fuel =>
          if piped <? count then
            let* (sp, r) := p_expose P sp in
            match r with
            | Ok (inl slots) =>
                let* room := wsub W checked count piped in
                let max_slots := Nat.min room (length slots) in
                let* slots := slice_to max_slots slots in
                let* (sc, rc) := c_bulk_consume C slots sc in
                match rc with
                | Ok amount =>
                    let* (sp, r) := p_consider P amount sp in
                    match r with
                    | Ok tt =>
                        let* piped := wadd W checked piped amount in
                        word_bulk_pipe_at_most_loop fuel P C count piped sp sc
                    | Err producer_error => Ret (sp, sc, Err (PipeProducer producer_error))
                    end
                | Err consumer_error => Ret (sp, sc, Err (PipeConsumer consumer_error))
                end
            | Ok (inr final_value) =>
                let* (sc, rc) := c_close C final_value sc in
                match rc with
                | Ok tt => Ret (sp, sc, Ok piped)
                | Err consumer_error => Ret (sp, sc, Err (PipeConsumer consumer_error))
                end
            | Err producer_error => Ret (sp, sc, Err (PipeProducer producer_error))
            end
          else Ret (sp, sc, Ok piped)
      end.

    Definition word_bulk_pipe_at_most (fuel : nat) (P : bulk_producer SP T F PE)
        (C : bulk_consumer SC T F CE) (count : nat) (sp : SP) (sc : SC) :=
      word_bulk_pipe_at_most_loop fuel P C count 0 sp sc.
  End Pipes.
End Words.

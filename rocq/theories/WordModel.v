(** The queues once more, this time with the arithmetic of machine words.

    QueueModel computes with unbounded numbers. Here a [usize] is a number below
    [W], and every [+], [+=], [-] and [-=] of the queues is the one of Rust: in a
    build with overflow checks ([checked = true], the debug profile) leaving the
    range panics; in a build without them ([checked = false], the release profile)
    the result wraps around. The functions are those of fixed.rs 101-137 and
    239-295. [Static] (static_.rs 47-75 and 77-132) has the same functions with the
    constant [N] for [self.capacity()]; [N] is the length of its array, so that this
    one definition stands for both.

    Simplifications: as in QueueModel. [%], [<] and [==] never leave the range and
    are those of the numbers. *)
From Coq Require Import List Arith.
From Verif Require Import Prelude QueueModel.
Import ListNotations.
Set Implicit Arguments.

Section Words.
  Context (W : nat) (checked : bool).

  (** [a + b] on [usize]. *)
  Definition wadd (a b : nat) : outcome nat :=
    if a + b <? W then Ret (a + b)
    else if checked then Panic else Ret (a + b - W).

  (** [a - b] on [usize]. *)
  Definition wsub (a b : nat) : outcome nat :=
    if b <=? a then Ret (a - b)
    else if checked then Panic else Ret (a + W - b).

  Context {T : Type}.

  (** fixed.rs 103-105; static_.rs 48-50. *)
  Definition word_is_data_contiguous (q : fixed T) : outcome bool :=
    let* s := wadd (fx_read q) (fx_amount q) in
    Ret (s <? fixed_capacity q).

  (** fixed.rs 134-136; static_.rs 72-74. *)
  Definition word_write_to (q : fixed T) : outcome nat :=
    let* s := wadd (fx_read q) (fx_amount q) in
    cmod s (fixed_capacity q).

  (** fixed.rs 108-114; static_.rs 53-59. *)
  Definition word_readable_slice (q : fixed T) : outcome (list T) :=
    let* contiguous := word_is_data_contiguous q in
    if contiguous then
      let* write_to := word_write_to q in
      slice (fx_read q) write_to (fx_data q)
    else slice_from (fx_read q) (fx_data q).

  (** fixed.rs 117-125; static_.rs 62-70. *)
  Definition word_writeable_slice (q : fixed T) : outcome (nat * nat) :=
    let capacity := fixed_capacity q in
    let* write_to := word_write_to q in
    let* contiguous := word_is_data_contiguous q in
    if contiguous then
      let* s := slice write_to capacity (fx_data q) in
      Ret (write_to, length s)
    else
      let* s := slice write_to (fx_read q) (fx_data q) in
      Ret (write_to, length s).

  (** fixed.rs 247-256; static_.rs 84-93. *)
  Definition word_enqueue (item : T) (q : fixed T) : outcome (fixed T * option T) :=
    if fx_amount q =? fixed_capacity q then Ret (q, Some item)
    else
      let* write_to := word_write_to q in
      let* data := index_set write_to item (fx_data q) in
      let* amount := wadd (fx_amount q) 1 in
      Ret (mk_fixed data (fx_read q) amount, None).

  (** fixed.rs 258-264; static_.rs 95-101. *)
  Definition word_expose_slots (q : fixed T) : outcome (fixed T * option nat) :=
    if fx_amount q =? fixed_capacity q then Ret (q, None)
    else
      let* (_, n) := word_writeable_slice q in
      Ret (q, Some n).

  (** The caller storing [ys] through the slice of [expose_slots]. *)
  Definition word_write (ys : list T) (q : fixed T) : fixed T :=
    match word_writeable_slice q with
    | Ret (o, n) => mk_fixed (blit o (firstn n ys) (fx_data q)) (fx_read q) (fx_amount q)
    | _ => q
    end.

  (** fixed.rs 266-268; static_.rs 103-105. *)
  Definition word_consider_enqueued (amount : nat) (q : fixed T) : outcome (fixed T) :=
    let* amount := wadd (fx_amount q) amount in
    Ret (mk_fixed (fx_data q) (fx_read q) amount).

  (** fixed.rs 270-281; static_.rs 107-118. *)
  Definition word_dequeue (q : fixed T) : outcome (fixed T * option T) :=
    if fx_amount q =? 0 then Ret (q, None)
    else
      let previous_read := fx_read q in
      let* next := wadd (fx_read q) 1 in
      let* read := cmod next (fixed_capacity q) in
      let* amount := wsub (fx_amount q) 1 in
      let* item := index previous_read (fx_data q) in
      Ret (mk_fixed (fx_data q) read amount, Some item).

  (** fixed.rs 283-289; static_.rs 120-126. *)
  Definition word_expose_items (q : fixed T) : outcome (fixed T * option (list T)) :=
    if fx_amount q =? 0 then Ret (q, None)
    else
      let* s := word_readable_slice q in
      Ret (q, Some s).

  (** fixed.rs 291-294; static_.rs 128-131. *)
  Definition word_consider_dequeued (amount : nat) (q : fixed T) : outcome (fixed T) :=
    let* next := wadd (fx_read q) amount in
    let* read := cmod next (fixed_capacity q) in
    let* amount := wsub (fx_amount q) amount in
    Ret (mk_fixed (fx_data q) read amount).

  Definition word_queue : queue (fixed T) T := {|
    q_len := @fx_amount T;
    q_enqueue := word_enqueue;
    q_expose_slots := word_expose_slots;
    q_write := word_write;
    q_consider_enqueued := word_consider_enqueued;
    q_dequeue := word_dequeue;
    q_expose_items := word_expose_items;
    q_consider_dequeued := word_consider_dequeued
  |}.
End Words.

Arguments word_queue W checked T : clear implicits.

(** Model of the consumer BulkScrambler for items with an arbitrary implementation of [Clone], see CloneModel.v.
    The wrapped consumer is one whose own methods do not run the user's [clone]. Paths are relative to ufotofu/src. *)
From Coq Require Import Bool List Arith.
From Verif Require Import Prelude QueueModel Traits BasicModel CloneModel ScramblerModel.
Import ListNotations.
Set Implicit Arguments.

Section ConsumerScrambler.
  Context {W S T F E : Type} (clone : T -> W -> W * option T) (dbg : bool).
  Notation state := (cscr S T).

  (** [Queue::bulk_dequeue], ufotofu_queues/src/lib.rs 145-156, as in CloneModel.v, into a buffer of [len] items: answers
      the clones that were written to the front of the buffer. *)
  Definition q_bulk_dequeue_into {Q} (I : queue Q T) (len : nat) (q : Q) (w : W) : outcome (Q * W * (list T * caught nat)) :=
    let* (q, slots) := q_expose_items I q in
    match slots with
    | None => Ret (q, w, ([], Done 0))
    | Some slots =>
        let amount := Nat.min (length slots) len in
        match clone_each clone (firstn amount slots) w with
        | (w, (ys, true)) =>
            let* q := q_consider_dequeued I amount q in
            Ret (q, w, (ys, Done amount))
        | (w, (ys, false)) => Ret (q, w, (ys, Unwound))
        end
    end.

  (** consumer/bulk_scrambler.rs 244-287. [dequeue] and [bulk_dequeue] clone; the latter writes into the slots of the
      wrapped consumer, also if it panics. *)
  Definition cscr_perform_operation_cloning (C : bulk_consumer S T F E) (s : state) (w : W)
    : outcome (state * W * caught (res unit E)) :=
    debug_assert dbg (0 <? cs_len s) (
    let* op := index (cs_index s) (cs_operations s) in
    let* (s, w, r) :=
      match op with
      | ScConsume =>
          let* (b, w, o) := fixed_dequeue_cloning clone (cs_buffer s) w in
          let s := cs_with_buffer b s in
          match o with
          | Unwound => Ret (s, w, Unwound)
          | Done o =>
              let* item := expect o in
              let* (i, r) := c_consume C item (cs_inner s) in
              Ret (cs_with_inner i s, w, Done r)
          end
      | ScConsumeSlots n =>
          let* (i, r) := c_expose C (cs_inner s) in
          let s := cs_with_inner i s in
          match r with
          | Err e => Ret (s, w, Done (Err e))
          | Ok slots_len =>
              let* (b, w, (ys, amount)) := q_bulk_dequeue_into (fixed_queue T) (Nat.min slots_len n) (cs_buffer s) w in
              let s := cs_with_inner (c_write C ys (cs_inner s)) (cs_with_buffer b s) in
              match amount with
              | Unwound => Ret (s, w, Unwound)
              | Done amount =>
                  let* (i, r) := c_consume_slots C amount (cs_inner s) in
                  Ret (cs_with_inner i s, w, Done r)
              end
          end
      | ScFlush =>
          let* (i, r) := c_flush C (cs_inner s) in
          Ret (cs_with_inner i s, w, Done r)
      end in
    match r with
    | Unwound => Ret (s, w, Unwound)
    | Done (Err e) => Ret (s, w, Done (Err e))
    | Done (Ok tt) =>
        let* s := cscr_advance s in
        Ret (s, w, Done (Ok tt))
    end).

  (** [while self.buffer.len() > 0 { self.perform_operation().await?; }],
      consumer/bulk_scrambler.rs 163-165, 176-178, 191-193, 220-222. *)
  Fixpoint cscr_drain_cloning (fuel : nat) (C : bulk_consumer S T F E) (s : state) (w : W) : outcome (state * W * caught (res unit E)) :=
    match fuel with
    | 0 => NoFuel
    | Datatypes.S fuel =>
        if 0 <? cs_len s then
          let* (s, w, r) := cscr_perform_operation_cloning C s w in
          match r with
          | Done (Ok tt) => cscr_drain_cloning fuel C s w
          | r => Ret (s, w, r)
          end
        else Ret (s, w, Done (Ok tt))
    end.

  (** consumer/bulk_scrambler.rs 160-172. The item is moved into the queue, or dropped if a [clone] panics. *)
  Definition cscr_consume_cloning (fuel : nat) (C : bulk_consumer S T F E) (item : T) (s : state) (w : W)
    : outcome (state * W * caught (res unit E)) :=
    let* (b, o) := q_enqueue (fixed_queue T) item (cs_buffer s) in
    let s := cs_with_buffer b s in
    match o with
    | None => Ret (s, w, Done (Ok tt))
    | Some item =>
        let* (s, w, r) := cscr_drain_cloning fuel C s w in
        match r with
        | Done (Ok tt) =>
            let* (b, yay) := q_enqueue (fixed_queue T) item (cs_buffer s) in
            debug_assert dbg (match yay with Some _ => true | None => false end) (
            Ret (cs_with_buffer b s, w, Done (Ok tt)))
        | r => Ret (s, w, r)
        end
    end.

  (** consumer/bulk_scrambler.rs 174-182. *)
  Definition cscr_close_cloning (fuel : nat) (C : bulk_consumer S T F E) (fin : F) (s : state) (w : W)
    : outcome (state * W * caught (res unit E)) :=
    let* (s, w, r) := cscr_drain_cloning fuel C s w in
    match r with
    | Done (Ok tt) =>
        let* (i, r) := c_close C fin (cs_inner s) in
        Ret (cs_with_inner i s, w, Done r)
    | r => Ret (s, w, r)
    end.

  (** consumer/bulk_scrambler.rs 189-197. *)
  Definition cscr_flush_cloning (fuel : nat) (C : bulk_consumer S T F E) (s : state) (w : W)
    : outcome (state * W * caught (res unit E)) :=
    let* (s, w, r) := cscr_drain_cloning fuel C s w in
    match r with
    | Done (Ok tt) =>
        let* (i, r) := c_flush C (cs_inner s) in
        Ret (cs_with_inner i s, w, Done r)
    | r => Ret (s, w, r)
    end.

  (** consumer/bulk_scrambler.rs 204-231. *)
  Definition cscr_expose_cloning (fuel : nat) (C : bulk_consumer S T F E) (s : state) (w : W)
    : outcome (state * W * caught (res nat E)) :=
    if cs_len s <? fixed_capacity (cs_buffer s) then
      let* (b, o) := q_expose_slots (fixed_queue T) (cs_buffer s) in
      let* slots := expect o in
      Ret (cs_with_buffer b s, w, Done (Ok slots))
    else
      let* (s, w, r) := cscr_drain_cloning fuel C s w in
      match r with
      | Done (Ok tt) =>
          let* (b, o) := q_expose_slots (fixed_queue T) (cs_buffer s) in
          let* slots := expect o in
          Ret (cs_with_buffer b s, w, Done (Ok slots))
      | Done (Err e) => Ret (s, w, Done (Err e))
      | Unwound => Ret (s, w, Unwound)
      end.

  (** [BulkConsumer::bulk_consume], lib.rs, of the scrambler, as in CloneModel.v; [write] and [consume_slots] are those
      of ScramblerModel.v. *)
  Definition cscr_bulk_consume_cloning (fuel : nat) (C : bulk_consumer S T F E) (buf : list T) (s : state) (w : W)
    : outcome (state * W * caught (res nat E)) :=
    let* (s, w, r) := cscr_expose_cloning fuel C s w in
    match r with
    | Unwound => Ret (s, w, Unwound)
    | Done (Err e) => Ret (s, w, Done (Err e))
    | Done (Ok slots) =>
        let amount := Nat.min slots (length buf) in
        match clone_each clone (firstn amount buf) w with
        | (w, (ys, true)) =>
            let* (s, r) := cscr_consume_slots (E := E) amount (cscr_write ys s) in
            match r with
            | Err e => Ret (s, w, Done (Err e))
            | Ok tt => Ret (s, w, Done (Ok amount))
            end
        | (w, (ys, false)) => Ret (cscr_write ys s, w, Unwound)
        end
    end.
End ConsumerScrambler.

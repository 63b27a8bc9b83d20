(** Model of the code that clones items, for an arbitrary implementation of [Clone].

    The other model files take [Clone] to be the identity. Here [clone x w] runs the user's
    [clone] on [x] in the world [w] (whatever the user's code reads and changes): it
    answers the world afterwards and the clone, or [None] if it panics. A panic of the user's
    code unwinds out of the call, and the caller may catch it and use the object
    again; hence the state in which the object is left is part of the answer. Panics of the
    project's own code remain [Panic].

    Simplifications: [clone_from] has its default implementation, which assigns a clone. The
    methods that do not clone are those of the other model files. *)
From Coq Require Import Bool List Arith.
From Verif Require Import Prelude QueueModel Traits BasicModel.
Import ListNotations.
Set Implicit Arguments.

(** What comes out of a call in which the user's code may panic. *)
Inductive caught (A : Type) : Type :=
| Done (a : A)
| Unwound.
Arguments Done {A} a.
Arguments Unwound {A}.

Section Clone.
  Context {W T : Type} (clone : T -> W -> W * option T).

  (** The loop of [clone_from_slice] of the standard library, slice/specialize and
      slice/mod.rs: one item after the other. Answers the clones that were made and whether
      there was no panic. *)
  Fixpoint clone_each (src : list T) (w : W) : W * (list T * bool) :=
    match src with
    | [] => (w, ([], true))
    | x :: src =>
        match clone x w with
        | (w, None) => (w, ([], false))
        | (w, Some y) =>
            match clone_each src w with (w, (ys, b)) => (w, (y :: ys, b)) end
        end
    end.

  (** ** Queues *)

  (** [Queue::bulk_enqueue], ufotofu_queues/src/lib.rs 94-105. *)
  Definition q_bulk_enqueue_cloning {Q} (I : queue Q T) (buffer : list T) (q : Q) (w : W)
    : outcome (Q * W * caught nat) :=
    let* (q, slots) := q_expose_slots I q in
    match slots with
    | None => Ret (q, w, Done 0)
    | Some slots =>
        let amount := Nat.min slots (length buffer) in
        match clone_each (firstn amount buffer) w with
        | (w, (ys, true)) =>
            let q := q_write I ys q in
            let* q := q_consider_enqueued I amount q in
            Ret (q, w, Done amount)
        | (w, (ys, false)) => Ret (q_write I ys q, w, Unwound)
        end
    end.

  (** [Queue::bulk_dequeue], lib.rs 145-156. Returns the overwritten buffer. *)
  Definition q_bulk_dequeue_cloning {Q} (I : queue Q T) (buffer : list T) (q : Q) (w : W)
    : outcome (Q * W * (list T * caught nat)) :=
    let* (q, slots) := q_expose_items I q in
    match slots with
    | None => Ret (q, w, (buffer, Done 0))
    | Some slots =>
        let amount := Nat.min (length slots) (length buffer) in
        match clone_each (firstn amount slots) w with
        | (w, (ys, true)) =>
            let* q := q_consider_dequeued I amount q in
            Ret (q, w, (overlay ys buffer, Done amount))
        | (w, (ys, false)) => Ret (q, w, (overlay ys buffer, Unwound))
        end
    end.

  (** [Fixed::dequeue], fixed.rs 270-281: the indices move before the item is cloned. *)
  Definition fixed_dequeue_cloning (q : fixed T) (w : W) : outcome (fixed T * W * caught (option T)) :=
    if fx_amount q =? 0 then Ret (q, w, Done None)
    else
      let previous_read := fx_read q in
      let* read := cmod (fx_read q + 1) (fixed_capacity q) in
      let* amount := csub (fx_amount q) 1 in
      let q := mk_fixed (fx_data q) read amount in
      let* item := index previous_read (fx_data q) in
      match clone item w with
      | (w, Some y) => Ret (q, w, Done (Some y))
      | (w, None) => Ret (q, w, Unwound)
      end.

  (** [Static::dequeue], static_.rs 107-118. *)
  Definition static_dequeue_cloning (N : nat) (q : static T) (w : W)
    : outcome (static T * W * caught (option T)) :=
    if st_amount q =? 0 then Ret (q, w, Done None)
    else
      let previous_read := st_read q in
      let* read := cmod (st_read q + 1) N in
      let* amount := csub (st_amount q) 1 in
      let q := mk_static (st_data q) read amount in
      let* item := index previous_read (st_data q) in
      match clone item w with
      | (w, Some y) => Ret (q, w, Done (Some y))
      | (w, None) => Ret (q, w, Unwound)
      end.

  (** ** Producers and consumers *)

  (** [FromSlice::produce] and [FromBoxedSlice::produce], producer/from_slice.rs 157-166,
      producer/from_boxed_slice.rs 196-205: the item is cloned before the offset moves. *)
  Definition from_slice_produce_cloning (s : from_slice T) (w : W)
    : outcome (from_slice T * W * caught (res (T + unit) infallible)) :=
    if length (fs_slice s) =? fs_offset s then Ret (s, w, Done (Ok (inr tt)))
    else
      let* item := index (fs_offset s) (fs_slice s) in
      match clone item w with
      | (w, Some y) => Ret (mk_from_slice (fs_slice s) (fs_offset s + 1), w, Done (Ok (inl y)))
      | (w, None) => Ret (s, w, Unwound)
      end.

  Section Defaults.
    Context {S F E : Type}.

    (** [BulkProducer::bulk_produce], ufotofu/src/lib.rs 469-489. *)
    Definition bulk_produce_cloning (P : bulk_producer S T F E) (buf : list T) (s : S) (w : W)
      : outcome (S * W * (list T * caught (res (nat + F) E))) :=
      let* (s, r) := p_expose P s in
      match r with
      | Err e => Ret (s, w, (buf, Done (Err e)))
      | Ok (inl slots) =>
          let amount := Nat.min (length slots) (length buf) in
          match clone_each (firstn amount slots) w with
          | (w, (ys, true)) =>
              let* (s, r) := p_consider P amount s in
              match r with
              | Err e => Ret (s, w, (overlay ys buf, Done (Err e)))
              | Ok tt => Ret (s, w, (overlay ys buf, Done (Ok (inl amount))))
              end
          | (w, (ys, false)) => Ret (s, w, (overlay ys buf, Unwound))
          end
      | Ok (inr final_value) => Ret (s, w, (buf, Done (Ok (inr final_value))))
      end.

    (** [BulkConsumer::bulk_consume], lib.rs 237-252. *)
    Definition bulk_consume_cloning (C : bulk_consumer S T F E) (buf : list T) (s : S) (w : W)
      : outcome (S * W * caught (res nat E)) :=
      let* (s, r) := c_expose C s in
      match r with
      | Err e => Ret (s, w, Done (Err e))
      | Ok slots =>
          let amount := Nat.min slots (length buf) in
          match clone_each (firstn amount buf) w with
          | (w, (ys, true)) =>
              let s := c_write C ys s in
              let* (s, r) := c_consume_slots C amount s in
              match r with
              | Err e => Ret (s, w, Done (Err e))
              | Ok tt => Ret (s, w, Done (Ok amount))
              end
          | (w, (ys, false)) => Ret (c_write C ys s, w, Unwound)
          end
      end.

    (** [Consumer::consume_full_slice], lib.rs 136-157; [i] counts iterations. *)
    Fixpoint consume_full_slice_cloning_from (C : consumer S T F E) (i : nat) (buf : list T)
        (s : S) (w : W) : outcome (S * W * caught (res unit (consume_at_least_error E))) :=
      match buf with
      | [] => Ret (s, w, Done (Ok tt))
      | item :: buf =>
          match clone item w with
          | (w, None) => Ret (s, w, Unwound)
          | (w, Some item) =>
              let* (s, r) := c_consume C item s in
              match r with
              | Err err => Ret (s, w, Done (Err (mk_cale i err)))
              | Ok tt => consume_full_slice_cloning_from C (i + 1) buf s w
              end
          end
      end.

    Definition consume_full_slice_cloning (C : consumer S T F E) (buf : list T) (s : S) (w : W) :=
      consume_full_slice_cloning_from C 0 buf s w.

    (** [BulkConsumer::bulk_consume_full_slice], lib.rs 269-293. *)
    Fixpoint bulk_consume_full_slice_cloning_loop (fuel : nat) (C : bulk_consumer S T F E)
        (consumed_so_far : nat) (buf : list T) (s : S) (w : W)
      : outcome (S * W * caught (res unit (consume_at_least_error E))) :=
      match fuel with
      | 0 => NoFuel
      | Datatypes.S fuel =>
          if consumed_so_far <? length buf then
            let* rest := slice_from consumed_so_far buf in
            let* (s, w, r) := bulk_consume_cloning C rest s w in
            match r with
            | Done (Ok consumed_count) =>
                bulk_consume_full_slice_cloning_loop fuel C (consumed_so_far + consumed_count) buf s w
            | Done (Err err) => Ret (s, w, Done (Err (mk_cale consumed_so_far err)))
            | Unwound => Ret (s, w, Unwound)
            end
          else Ret (s, w, Done (Ok tt))
      end.

    Definition bulk_consume_full_slice_cloning (fuel : nat) (C : bulk_consumer S T F E)
        (buf : list T) (s : S) (w : W) :=
      bulk_consume_full_slice_cloning_loop fuel C 0 buf s w.

    (** [BulkProducer::bulk_overwrite_full_slice], lib.rs 506-536. *)
    Fixpoint bulk_overwrite_full_slice_cloning_loop (fuel : nat) (P : bulk_producer S T F E)
        (produced_so_far : nat) (buf : list T) (s : S) (w : W)
      : outcome (S * W * (list T * caught (res unit (produce_at_least_error F E)))) :=
      match fuel with
      | 0 => NoFuel
      | Datatypes.S fuel =>
          if produced_so_far <? length buf then
            let* rest := slice_from produced_so_far buf in
            let* (s, w, (rest, r)) := bulk_produce_cloning P rest s w in
            let buf := firstn produced_so_far buf ++ rest in
            match r with
            | Done (Ok (inl count)) =>
                bulk_overwrite_full_slice_cloning_loop fuel P (produced_so_far + count) buf s w
            | Done (Ok (inr fin)) => Ret (s, w, (buf, Done (Err (mk_pale produced_so_far (inl fin)))))
            | Done (Err err) => Ret (s, w, (buf, Done (Err (mk_pale produced_so_far (inr err)))))
            | Unwound => Ret (s, w, (buf, Unwound))
            end
          else Ret (s, w, (buf, Done (Ok tt)))
      end.

    Definition bulk_overwrite_full_slice_cloning (fuel : nat) (P : bulk_producer S T F E)
        (buf : list T) (s : S) (w : W) :=
      bulk_overwrite_full_slice_cloning_loop fuel P 0 buf s w.
  End Defaults.

  (** ** Pipes *)

  Section Pipes.
    Context {SP SC F PE CE : Type}.

    (** [pipe], lib.rs 541-574, on a producer that clones what it produces. The pipe itself
        moves items. *)
    Fixpoint pipe_cloning (fuel : nat) (produce : SP -> W -> outcome (SP * W * caught (res (T + F) PE)))
        (C : consumer SC T F CE) (sp : SP) (sc : SC) (w : W)
      : outcome (SP * SC * W * caught (res unit (pipe_error PE CE))) :=
      match fuel with
      | 0 => NoFuel
      | S fuel =>
          let* (sp, w, r) := produce sp w in
          match r with
          | Unwound => Ret (sp, sc, w, Unwound)
          | Done (Ok (inl item)) =>
              let* (sc, rc) := c_consume C item sc in
              match rc with
              | Ok tt => pipe_cloning fuel produce C sp sc w
              | Err consumer_error => Ret (sp, sc, w, Done (Err (PipeConsumer consumer_error)))
              end
          | Done (Ok (inr final_value)) =>
              let* (sc, rc) := c_close C final_value sc in
              match rc with
              | Ok tt => Ret (sp, sc, w, Done (Ok tt))
              | Err consumer_error => Ret (sp, sc, w, Done (Err (PipeConsumer consumer_error)))
              end
          | Done (Err producer_error) => Ret (sp, sc, w, Done (Err (PipeProducer producer_error)))
          end
      end.

    (** [bulk_pipe], lib.rs 579-613. *)
    Fixpoint bulk_pipe_cloning (fuel : nat) (P : bulk_producer SP T F PE) (C : bulk_consumer SC T F CE)
        (sp : SP) (sc : SC) (w : W)
      : outcome (SP * SC * W * caught (res unit (pipe_error PE CE))) :=
      match fuel with
      | 0 => NoFuel
      | S fuel =>
          let* (sp, r) := p_expose P sp in
          match r with
          | Ok (inl slots) =>
              let* (sc, w, rc) := bulk_consume_cloning C slots sc w in
              match rc with
              | Unwound => Ret (sp, sc, w, Unwound)
              | Done (Ok amount) =>
                  let* (sp, r) := p_consider P amount sp in
                  match r with
                  | Ok tt => bulk_pipe_cloning fuel P C sp sc w
                  | Err producer_error => Ret (sp, sc, w, Done (Err (PipeProducer producer_error)))
                  end
              | Done (Err consumer_error) => Ret (sp, sc, w, Done (Err (PipeConsumer consumer_error)))
              end
          | Ok (inr final_value) =>
              let* (sc, rc) := c_close C final_value sc in
              match rc with
              | Ok tt => Ret (sp, sc, w, Done (Ok tt))
              | Err consumer_error => Ret (sp, sc, w, Done (Err (PipeConsumer consumer_error)))
              end
          | Err producer_error => Ret (sp, sc, w, Done (Err (PipeProducer producer_error)))
          end
      end.
  End Pipes.
End Clone.

(** Model of the traits of ufotofu/src/lib.rs, their default methods, and the
    four pipe functions.

    Simplifications: a method that returns a future is modelled as running to
    completion in one step; [Clone] is the identity; an exposed slice of items
    is a list; an exposed mutable slice of slots is its length together with
    the operation [c_write] by which the caller stores items into the first
    slots. Loops that need not terminate take fuel. *)
From Coq Require Import Bool List Arith.
From Verif Require Import Prelude.
Import ListNotations.
Set Implicit Arguments.

(** ** The traits *)

(** [Producer], lib.rs 303-397. *)
Record producer (S T F E : Type) : Type := mk_producer {
  p_produce : S -> outcome (S * res (T + F) E)
}.

(** [BufferedProducer], lib.rs 400-412. *)
Record buffered_producer (S T F E : Type) : Type := mk_buffered_producer {
  p_producer :> producer S T F E;
  p_slurp : S -> outcome (S * res unit E)
}.

(** [BulkProducer], lib.rs 417-537. [p_bulk_produce] is a field because
    implementations may override it; it takes the buffer and returns it overwritten. *)
Record bulk_producer (S T F E : Type) : Type := mk_bulk_producer {
  p_buffered :> buffered_producer S T F E;
  p_expose : S -> outcome (S * res (list T + F) E);
  p_consider : nat -> S -> outcome (S * res unit E);
  p_bulk_produce : list T -> S -> outcome (S * (list T * res (nat + F) E))
}.

(** [Consumer], lib.rs 93-158. *)
Record consumer (S T F E : Type) : Type := mk_consumer {
  c_consume : T -> S -> outcome (S * res unit E);
  c_close : F -> S -> outcome (S * res unit E)
}.

(** [BufferedConsumer], lib.rs 164-178. *)
Record buffered_consumer (S T F E : Type) : Type := mk_buffered_consumer {
  c_consumer :> consumer S T F E;
  c_flush : S -> outcome (S * res unit E)
}.

(** [BulkConsumer], lib.rs 183-294. [c_write] stands for the caller writing
    through the slice returned by [expose_slots]. *)
Record bulk_consumer (S T F E : Type) : Type := mk_bulk_consumer {
  c_buffered :> buffered_consumer S T F E;
  c_expose : S -> outcome (S * res nat E);
  c_write : list T -> S -> S;
  c_consume_slots : nat -> S -> outcome (S * res unit E);
  c_bulk_consume : list T -> S -> outcome (S * res nat E)
}.

(** ** Default methods *)

Section Defaults.
  Context {S T F E : Type}.

  (** [BulkProducer::bulk_produce], lib.rs 469-489. *)
  Definition default_bulk_produce
      (expose : S -> outcome (S * res (list T + F) E))
      (consider : nat -> S -> outcome (S * res unit E))
      (buf : list T) (s : S) : outcome (S * (list T * res (nat + F) E)) :=
    let* (s, r) := expose s in
    match r with
    | Err e => Ret (s, (buf, Err e))
    | Ok (inl slots) =>
        let amount := Nat.min (length slots) (length buf) in
        let buf := firstn amount slots ++ skipn amount buf in
        let* (s, r) := consider amount s in
        match r with
        | Err e => Ret (s, (buf, Err e))
        | Ok tt => Ret (s, (buf, Ok (inl amount)))
        end
    | Ok (inr final_value) => Ret (s, (buf, Ok (inr final_value)))
    end.

  (** [BulkConsumer::bulk_consume], lib.rs 237-252. *)
  Definition default_bulk_consume
      (expose : S -> outcome (S * res nat E))
      (write : list T -> S -> S)
      (consume_slots : nat -> S -> outcome (S * res unit E))
      (buf : list T) (s : S) : outcome (S * res nat E) :=
    let* (s, r) := expose s in
    match r with
    | Err e => Ret (s, Err e)
    | Ok slots =>
        let amount := Nat.min slots (length buf) in
        let s := write (firstn amount buf) s in
        let* (s, r) := consume_slots amount s in
        match r with
        | Err e => Ret (s, Err e)
        | Ok tt => Ret (s, Ok amount)
        end
    end.

  (** [ConsumeAtLeastError] and [ProduceAtLeastError], errors.rs 54-59, 92-97. *)
  Record consume_at_least_error : Type := mk_cale { cale_count : nat; cale_reason : E }.
  Record produce_at_least_error : Type := mk_pale { pale_count : nat; pale_reason : F + E }.

  (** [Consumer::consume_full_slice], lib.rs 136-157; [i] counts iterations. *)
  Fixpoint consume_full_slice_from (C : consumer S T F E) (i : nat) (buf : list T) (s : S)
    : outcome (S * res unit consume_at_least_error) :=
    match buf with
    | [] => Ret (s, Ok tt)
    | item :: buf =>
        let* (s, r) := c_consume C item s in
        match r with
        | Err err => Ret (s, Err (mk_cale i err))
        | Ok tt => consume_full_slice_from C (i + 1) buf s
        end
    end.

  Definition consume_full_slice (C : consumer S T F E) (buf : list T) (s : S) :=
    consume_full_slice_from C 0 buf s.

  (** [BulkConsumer::bulk_consume_full_slice], lib.rs 269-293. *)
  Fixpoint bulk_consume_full_slice_loop (fuel : nat) (C : bulk_consumer S T F E)
      (consumed_so_far : nat) (buf : list T) (s : S)
    : outcome (S * res unit consume_at_least_error) :=
    match fuel with
    | 0 => NoFuel
    | Datatypes.S fuel =>
        if consumed_so_far <? length buf then
          let* rest := slice_from consumed_so_far buf in
          let* (s, r) := c_bulk_consume C rest s in
          match r with
          | Ok consumed_count =>
              bulk_consume_full_slice_loop fuel C (consumed_so_far + consumed_count) buf s
          | Err err => Ret (s, Err (mk_cale consumed_so_far err))
          end
        else Ret (s, Ok tt)
    end.

  Definition bulk_consume_full_slice (fuel : nat) (C : bulk_consumer S T F E) (buf : list T) (s : S) :=
    bulk_consume_full_slice_loop fuel C 0 buf s.

  (** [Producer::produce_item], lib.rs 337-354. *)
  Definition produce_item (P : producer S T F E) (s : S)
    : outcome (S * res T produce_at_least_error) :=
    let* (s, r) := p_produce P s in
    match r with
    | Ok (inl item) => Ret (s, Ok item)
    | Ok (inr fin) => Ret (s, Err (mk_pale 0 (inl fin)))
    | Err err => Ret (s, Err (mk_pale 0 (inr err)))
    end.

  (** [Producer::overwrite_full_slice], lib.rs 371-396; [todo] iterations remain. *)
  Fixpoint overwrite_full_slice_from (P : producer S T F E) (todo i : nat) (buf : list T) (s : S)
    : outcome (S * (list T * res unit produce_at_least_error)) :=
    match todo with
    | 0 => Ret (s, (buf, Ok tt))
    | Datatypes.S todo =>
        let* (s, r) := p_produce P s in
        match r with
        | Ok (inl item) =>
            let* buf := index_set i item buf in
            overwrite_full_slice_from P todo (i + 1) buf s
        | Ok (inr fin) => Ret (s, (buf, Err (mk_pale i (inl fin))))
        | Err err => Ret (s, (buf, Err (mk_pale i (inr err))))
        end
    end.

  Definition overwrite_full_slice (P : producer S T F E) (buf : list T) (s : S) :=
    overwrite_full_slice_from P (length buf) 0 buf s.

  (** [BulkProducer::bulk_overwrite_full_slice], lib.rs 506-536. The callee gets the
      subslice from [produced_so_far] on and overwrites it in place. *)
  Fixpoint bulk_overwrite_full_slice_loop (fuel : nat) (P : bulk_producer S T F E)
      (produced_so_far : nat) (buf : list T) (s : S)
    : outcome (S * (list T * res unit produce_at_least_error)) :=
    match fuel with
    | 0 => NoFuel
    | Datatypes.S fuel =>
        if produced_so_far <? length buf then
          let* rest := slice_from produced_so_far buf in
          let* (s, (rest, r)) := p_bulk_produce P rest s in
          let buf := firstn produced_so_far buf ++ rest in
          match r with
          | Ok (inl count) =>
              bulk_overwrite_full_slice_loop fuel P (produced_so_far + count) buf s
          | Ok (inr fin) => Ret (s, (buf, Err (mk_pale produced_so_far (inl fin))))
          | Err err => Ret (s, (buf, Err (mk_pale produced_so_far (inr err))))
          end
        else Ret (s, (buf, Ok tt))
    end.

  Definition bulk_overwrite_full_slice (fuel : nat) (P : bulk_producer S T F E) (buf : list T) (s : S) :=
    bulk_overwrite_full_slice_loop fuel P 0 buf s.
End Defaults.
Arguments consume_at_least_error : clear implicits.
Arguments produce_at_least_error : clear implicits.

(** ** Pipes *)

(** [PipeError], errors.rs 10-15. *)
Inductive pipe_error (PE CE : Type) : Type :=
| PipeProducer (e : PE)
| PipeConsumer (e : CE).
Arguments PipeProducer {PE CE} e.
Arguments PipeConsumer {PE CE} e.

Section Pipes.
  Context {SP SC T F PE CE : Type}.

  (** [pipe], lib.rs 541-574. *)
  Fixpoint pipe (fuel : nat) (P : producer SP T F PE) (C : consumer SC T F CE) (sp : SP) (sc : SC)
    : outcome (SP * SC * res unit (pipe_error PE CE)) :=
    match fuel with
    | 0 => NoFuel
    | S fuel =>
        let* (sp, r) := p_produce P sp in
        match r with
        | Ok (inl item) =>
            let* (sc, rc) := c_consume C item sc in
            match rc with
            | Ok tt => pipe fuel P C sp sc
            | Err consumer_error => Ret (sp, sc, Err (PipeConsumer consumer_error))
            end
        | Ok (inr final_value) =>
            let* (sc, rc) := c_close C final_value sc in
            match rc with
            | Ok tt => Ret (sp, sc, Ok tt)
            | Err consumer_error => Ret (sp, sc, Err (PipeConsumer consumer_error))
            end
        | Err producer_error => Ret (sp, sc, Err (PipeProducer producer_error))
        end
    end.

  (** [bulk_pipe], lib.rs 579-613. *)
  Fixpoint bulk_pipe (fuel : nat) (P : bulk_producer SP T F PE) (C : bulk_consumer SC T F CE)
      (sp : SP) (sc : SC) : outcome (SP * SC * res unit (pipe_error PE CE)) :=
    match fuel with
    | 0 => NoFuel
    | S fuel =>
        let* (sp, r) := p_expose P sp in
        match r with
        | Ok (inl slots) =>
            let* (sc, rc) := c_bulk_consume C slots sc in
            match rc with
            | Ok amount =>
                let* (sp, r) := p_consider P amount sp in
                match r with
                | Ok tt => bulk_pipe fuel P C sp sc
                | Err producer_error => Ret (sp, sc, Err (PipeProducer producer_error))
                end
            | Err consumer_error => Ret (sp, sc, Err (PipeConsumer consumer_error))
            end
        | Ok (inr final_value) =>
            let* (sc, rc) := c_close C final_value sc in
            match rc with
            | Ok tt => Ret (sp, sc, Ok tt)
            | Err consumer_error => Ret (sp, sc, Err (PipeConsumer consumer_error))
            end
        | Err producer_error => Ret (sp, sc, Err (PipeProducer producer_error))
        end
    end.

  (** [pipe_at_most], lib.rs 620-658. The loop runs at most [count] times, so its fuel
      is [count - piped] and never runs out. *)
  Fixpoint pipe_at_most_loop (todo : nat) (P : producer SP T F PE) (C : consumer SC T F CE)
      (piped : nat) (sp : SP) (sc : SC) : outcome (SP * SC * res nat (pipe_error PE CE)) :=
    match todo with
    | 0 => Ret (sp, sc, Ok piped)
    | S todo =>
        let* (sp, r) := p_produce P sp in
        match r with
        | Ok (inl item) =>
            let* (sc, rc) := c_consume C item sc in
            match rc with
            | Ok tt => pipe_at_most_loop todo P C (piped + 1) sp sc
            | Err consumer_error => Ret (sp, sc, Err (PipeConsumer consumer_error))
            end
        | Ok (inr final_value) =>
            let* (sc, rc) := c_close C final_value sc in
            match rc with
            | Ok tt => Ret (sp, sc, Ok piped)
            | Err consumer_error => Ret (sp, sc, Err (PipeConsumer consumer_error))
            end
        | Err producer_error => Ret (sp, sc, Err (PipeProducer producer_error))
        end
    end.

  Definition pipe_at_most (P : producer SP T F PE) (C : consumer SC T F CE) (count : nat)
      (sp : SP) (sc : SC) := pipe_at_most_loop count P C 0 sp sc.

  (** [bulk_pipe_at_most], lib.rs 665-705. *)
  Fixpoint bulk_pipe_at_most_loop (fuel : nat) (P : bulk_producer SP T F PE)
      (C : bulk_consumer SC T F CE) (count piped : nat) (sp : SP) (sc : SC)
    : outcome (SP * SC * res nat (pipe_error PE CE)) :=
    match fuel with
    | 0 => NoFuel
    | S fuel =>
        if piped <? count then
          let* (sp, r) := p_expose P sp in
          match r with
          | Ok (inl slots) =>
              let* room := csub count piped in
              let max_slots := Nat.min room (length slots) in
              let* slots := slice_to max_slots slots in
              let* (sc, rc) := c_bulk_consume C slots sc in
              match rc with
              | Ok amount =>
                  let* (sp, r) := p_consider P amount sp in
                  match r with
                  | Ok tt => bulk_pipe_at_most_loop fuel P C count (piped + amount) sp sc
                  | Err producer_error => Ret (sp, sc, Err (PipeProducer producer_error))
                  end
              | Err consumer_error => Ret (sp, sc, Err (PipeConsumer consumer_error))
              end
          | Ok (inr final_value) =>
              let* (sc, rc) := c_close C final_value sc in
              match rc with
              | Ok tt => Ret (sp, sc, Ok piped)
              | Err consumer_error => Ret (sp, sc, Err (PipeConsumer consumer_error))
              end
          | Err producer_error => Ret (sp, sc, Err (PipeProducer producer_error))
          end
        else Ret (sp, sc, Ok piped)
    end.

  Definition bulk_pipe_at_most (fuel : nat) (P : bulk_producer SP T F PE)
      (C : bulk_consumer SC T F CE) (count : nat) (sp : SP) (sc : SC) :=
    bulk_pipe_at_most_loop fuel P C count 0 sp sc.
End Pipes.

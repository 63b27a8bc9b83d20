(** Model of the adaptors for asynchronous readers and writers,
    ufotofu/src/producer/reader.rs and ufotofu/src/consumer/writer.rs, and of the three provided
    methods of futures-lite they use: [read], [read_exact] and [write_all].

    Simplifications: bytes are an arbitrary type [T]; the caller's buffer is passed in and returned
    overwritten; an [io::Error] is its kind and a number that tells errors of one kind apart; waiting
    is not modelled. When a reader reads into slots of a queue, it is given a buffer with
    arbitrary contents [x0] of the same length, and what it reports as read is then written to the slots.
    An [AsyncBufRead] is also an [AsyncRead], as in the source. *)
From Coq Require Import Bool List Arith.
From Verif Require Import Prelude QueueModel Traits.
Import ListNotations.
Set Implicit Arguments.

(** [std::io::ErrorKind] and [std::io::Error]. *)
Inductive error_kind : Type := UnexpectedEof | WriteZero | OtherKind (n : nat).
Record io_error : Type := mk_io_error { kind : error_kind; payload : nat }.

Definition is_unexpected_eof (e : io_error) : bool :=
  match kind e with UnexpectedEof => true | _ => false end.

(** [AsyncRead]. *)
Record reader (S T : Type) : Type := mk_reader {
  r_read : list T -> S -> outcome (S * (list T * res nat io_error))
}.

(** [AsyncBufRead]. *)
Record buf_reader (S T : Type) : Type := mk_buf_reader {
  r_reader :> reader S T;
  r_fill_buf : S -> outcome (S * res (list T) io_error);
  r_consume : nat -> S -> outcome S
}.

(** [AsyncWrite]. *)
Record writer (S T : Type) : Type := mk_writer {
  w_write : list T -> S -> outcome (S * res nat io_error);
  w_flush : S -> outcome (S * res unit io_error);
  w_close : S -> outcome (S * res unit io_error)
}.

(** [read_exact] of futures-lite: read until the buffer is full. Every iteration but the last reads at
    least one byte, so [fuel] is the length of the buffer. The bytes read so far are [done]. *)
Fixpoint read_exact_loop {S T} (Rd : reader S T) (fuel : nat) (done buf : list T) (s : S)
  : outcome (S * (list T * res unit io_error)) :=
  match buf with
  | [] => Ret (s, (done, Ok tt))
  | _ :: _ =>
      match fuel with
      | 0 => NoFuel
      | Datatypes.S fuel =>
          let* (s, (buf, r)) := r_read Rd buf s in
          match r with
          | Err e => Ret (s, (done ++ buf, Err e))
          | Ok n =>
              let* rest := slice_from n buf in
              if n =? 0 then Ret (s, (done ++ buf, Err (mk_io_error UnexpectedEof 0)))
              else read_exact_loop Rd fuel (done ++ firstn n buf) rest s
          end
      end
  end.

Definition read_exact {S T} (Rd : reader S T) (buf : list T) (s : S) := read_exact_loop Rd (length buf) [] buf s.

(** [write_all] of futures-lite. *)
Fixpoint write_all_loop {S T} (W : writer S T) (fuel : nat) (buf : list T) (s : S) : outcome (S * res unit io_error) :=
  match buf with
  | [] => Ret (s, Ok tt)
  | _ :: _ =>
      match fuel with
      | 0 => NoFuel
      | Datatypes.S fuel =>
          let* (s, r) := w_write W buf s in
          match r with
          | Err e => Ret (s, Err e)
          | Ok n =>
              let* rest := slice_from n buf in
              if n =? 0 then Ret (s, Err (mk_io_error WriteZero 0))
              else write_all_loop W fuel rest s
          end
      end
  end.

Definition write_all {S T} (W : writer S T) (buf : list T) (s : S) := write_all_loop W (length buf) buf s.

(** The body of both [produce] methods that reads one byte, reader.rs 48-58 and 148-158. *)
Definition read_one {S T} (Rd : reader S T) (x0 : T) (s : S) : outcome (S * res (T + unit) io_error) :=
  let* (s, (buf, r)) := read_exact Rd [x0] s in
  match r with
  | Err err => if is_unexpected_eof err then Ret (s, Ok (inr tt)) else Ret (s, Err err)
  | Ok tt => let* b := index 0 buf in Ret (s, Ok (inl b))
  end.

(** The end of both [bulk_produce] methods, reader.rs 103-109 and 217-223. *)
Definition read_some {S T} (Rd : reader S T) (buf : list T) (s : S)
  : outcome (S * (list T * res (nat + unit) io_error)) :=
  let* (s, (buf, r)) := r_read Rd buf s in
  match r with
  | Err err => Ret (s, (buf, Err err))
  | Ok amount => if amount =? 0 then Ret (s, (buf, Ok (inr tt))) else Ret (s, (buf, Ok (inl amount)))
  end.

Section BufReader.
  Context {S T : Type} (Rd : buf_reader S T) (x0 : T).

  (** reader.rs 67-70. *)
  Definition br_slurp (s : S) : outcome (S * res unit io_error) :=
    let* (s, r) := r_fill_buf Rd s in
    match r with
    | Err e => Ret (s, Err e)
    | Ok _ => Ret (s, Ok tt)
    end.

  (** reader.rs 77-91. *)
  Definition br_expose_items (s : S) : outcome (S * res (list T + unit) io_error) :=
    let* (s, r) := r_fill_buf Rd s in
    match r with
    | Err e => Ret (s, Err e)
    | Ok [] => Ret (s, Ok (inr tt))
    | Ok _ =>
        let* (s, r) := r_fill_buf Rd s in
        match r with
        | Err e => Ret (s, Err e)
        | Ok buf => Ret (s, Ok (inl buf))
        end
    end.

  (** reader.rs 93-96. *)
  Definition br_consider_produced (amount : nat) (s : S) : outcome (S * res unit io_error) :=
    let* s := r_consume Rd amount s in Ret (s, Ok tt).

  (** [BufReaderToBulkProducer], reader.rs 38-111. *)
  Definition buf_reader_producer : bulk_producer S T unit io_error :=
    mk_bulk_producer
      (mk_buffered_producer (mk_producer (read_one Rd x0)) br_slurp)
      br_expose_items br_consider_produced (read_some Rd).
End BufReader.

(** reader.rs 117-120. *)
Record reader_state (S Q : Type) : Type := mk_reader_state { rs_reader : S; rs_queue : Q }.

Section Reader.
  Context {S Q T : Type} (Rd : reader S T) (I : queue Q T) (x0 : T).
  Notation state := (reader_state S Q).

  (** reader.rs 144-162. *)
  Definition rd_produce (st : state) : outcome (state * res (T + unit) io_error) :=
    let* (q, o) := q_dequeue I (rs_queue st) in
    match o with
    | None => let* (s, r) := read_one Rd x0 (rs_reader st) in Ret (mk_reader_state s q, r)
    | Some byte => Ret (mk_reader_state (rs_reader st) q, Ok (inl byte))
    end.

  (** reader.rs 170-173. *)
  Definition rd_slurp (st : state) : outcome (state * res unit io_error) := Ret (st, Ok tt).

  (** reader.rs 181-203. *)
  Definition rd_expose_items (st : state) : outcome (state * res (list T + unit) io_error) :=
    if q_is_empty I (rs_queue st) then
      let* (q, o) := q_expose_slots I (rs_queue st) in
      let* buf_slots := expect o in
      let* (s, (buf, r)) := r_read Rd (repeat x0 buf_slots) (rs_reader st) in
      match r with
      | Err e => Ret (mk_reader_state s q, Err e)
      | Ok num_read_bytes =>
          let q := q_write I (firstn num_read_bytes buf) q in
          if num_read_bytes =? 0 then Ret (mk_reader_state s q, Ok (inr tt))
          else
            let* q := q_consider_enqueued I num_read_bytes q in
            let* (q, o) := q_expose_items I q in
            let* items := expect o in
            Ret (mk_reader_state s q, Ok (inl items))
      end
    else
      let* (q, o) := q_expose_items I (rs_queue st) in
      let* items := expect o in
      Ret (mk_reader_state (rs_reader st) q, Ok (inl items)).

  (** reader.rs 205-208. *)
  Definition rd_consider_produced (amount : nat) (st : state) : outcome (state * res unit io_error) :=
    let* q := q_consider_dequeued I amount (rs_queue st) in
    Ret (mk_reader_state (rs_reader st) q, Ok tt).

  (** reader.rs 211-227. *)
  Definition rd_bulk_produce (buf : list T) (st : state) : outcome (state * (list T * res (nat + unit) io_error)) :=
    if q_is_empty I (rs_queue st) then
      let* (s, r) := read_some Rd buf (rs_reader st) in
      Ret (mk_reader_state s (rs_queue st), r)
    else
      let* (q, (buf, n)) := q_bulk_dequeue I buf (rs_queue st) in
      Ret (mk_reader_state (rs_reader st) q, (buf, Ok (inl n))).

  (** [ReaderToBulkProducer], reader.rs 134-228. *)
  Definition reader_producer : bulk_producer state T unit io_error :=
    mk_bulk_producer
      (mk_buffered_producer (mk_producer rd_produce) rd_slurp)
      rd_expose_items rd_consider_produced rd_bulk_produce.
End Reader.

(** writer.rs 11-14. *)
Record writer_state (S Q : Type) : Type := mk_writer_state { ws_writer : S; ws_queue : Q }.

Section Writer.
  Context {S Q T : Type} (W : writer S T) (I : queue Q T).
  Notation state := (writer_state S Q).

  (** writer.rs 33-45. *)
  Fixpoint flush_internal_buffer (fuel : nat) (st : state) : outcome (state * res unit io_error) :=
    match fuel with
    | 0 => NoFuel
    | Datatypes.S fuel =>
        let* (q, o) := q_expose_items I (ws_queue st) in
        match o with
        | None => Ret (mk_writer_state (ws_writer st) q, Ok tt)
        | Some items =>
            let* (s, r) := write_all W items (ws_writer st) in
            match r with
            | Err e => Ret (mk_writer_state s q, Err e)
            | Ok tt =>
                let written := length items in
                let* q := q_consider_dequeued I written q in
                flush_internal_buffer fuel (mk_writer_state s q)
            end
        end
    end.

  (** [self.flush_internal_buffer().await?] followed by [k]. *)
  Definition flushed {X : Type} (fuel : nat) (st : state) (k : state -> outcome (state * res X io_error))
    : outcome (state * res X io_error) :=
    let* (st, r) := flush_internal_buffer fuel st in
    match r with
    | Err e => Ret (st, Err e)
    | Ok tt => k st
    end.

  Context (fuel : nat).

  (** writer.rs 57-61. *)
  Definition wr_consume (item : T) (st : state) : outcome (state * res unit io_error) :=
    flushed fuel st (fun st =>
      let* (s, r) := write_all W [item] (ws_writer st) in
      Ret (mk_writer_state s (ws_queue st), r)).

  (** writer.rs 64-67. *)
  Definition wr_close (_fin : unit) (st : state) : outcome (state * res unit io_error) :=
    flushed fuel st (fun st =>
      let* (s, r) := w_close W (ws_writer st) in
      Ret (mk_writer_state s (ws_queue st), r)).

  (** writer.rs 75-78. *)
  Definition wr_flush (st : state) : outcome (state * res unit io_error) :=
    flushed fuel st (fun st =>
      let* (s, r) := w_flush W (ws_writer st) in
      Ret (mk_writer_state s (ws_queue st), r)).

  (** writer.rs 86-92. *)
  Definition wr_expose_slots (st : state) : outcome (state * res nat io_error) :=
    flushed fuel st (fun st =>
      let* (q, o) := q_expose_slots I (ws_queue st) in
      let* n := expect o in
      Ret (mk_writer_state (ws_writer st) q, Ok n)).

  (** The caller writing into the slots. *)
  Definition wr_write (ys : list T) (st : state) : state :=
    mk_writer_state (ws_writer st) (q_write I ys (ws_queue st)).

  (** writer.rs 94-97. *)
  Definition wr_consume_slots (amount : nat) (st : state) : outcome (state * res unit io_error) :=
    let* q := q_consider_enqueued I amount (ws_queue st) in
    Ret (mk_writer_state (ws_writer st) q, Ok tt).

  (** writer.rs 99-111. *)
  Definition wr_bulk_consume (buf : list T) (st : state) : outcome (state * res nat io_error) :=
    flushed fuel st (fun st =>
      let* (s, r) := w_write W buf (ws_writer st) in
      match r with
      | Err e => Ret (mk_writer_state s (ws_queue st), Err e)
      | Ok written_amount =>
          if written_amount =? 0 then Ret (mk_writer_state s (ws_queue st), Err (mk_io_error WriteZero 1))
          else Ret (mk_writer_state s (ws_queue st), Ok written_amount)
      end).

  (** [WriterToBulkConsumer], writer.rs 48-112. *)
  Definition writer_consumer : bulk_consumer state T unit io_error :=
    mk_bulk_consumer
      (mk_buffered_consumer (mk_consumer wr_consume wr_close) wr_flush)
      wr_expose_slots wr_write wr_consume_slots wr_bulk_consume.
End Writer.

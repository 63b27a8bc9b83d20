(** Model of the adaptors for asynchronous readers and writers, ufotofu/src/producer/reader.rs and
    ufotofu/src/consumer/writer.rs, poll by poll. Simplifications as in AsyncModel, and as in IoModel for what is not asynchronous.
    A call of [poll_read] that returns [Pending] may change the caller's buffer, but nobody looks at it before the call
    that is ready; so the future gives the buffer back when it is ready. *)
From Coq Require Import Bool List Arith.
From Verif Require Import Prelude QueueModel Traits IoModel AsyncModel.
Import ListNotations.
Set Implicit Arguments.

(** [AsyncRead]: [read] of a reader is the future that calls [poll_read] until it is ready. *)
Record a_reader (S T : Type) : Type := mk_a_reader {
  ar_read : list T -> fut S (list T * res nat io_error)
}.

(** [AsyncBufRead]. [consume] is not asynchronous. *)
Record a_buf_reader (S T : Type) : Type := mk_a_buf_reader {
  ar_reader :> a_reader S T;
  ar_fill_buf : fut S (res (list T) io_error);
  ar_consume : nat -> S -> outcome S
}.

(** [AsyncWrite]. *)
Record a_writer (S T : Type) : Type := mk_a_writer {
  aw_write : list T -> fut S (res nat io_error);
  aw_flush : fut S (res unit io_error);
  aw_close : fut S (res unit io_error)
}.

(** [ReadExactFuture] of futures-lite: its [poll] calls [poll_read] in a loop and passes [Pending] on; the future holds
    the part of the buffer that is not filled yet. *)
Fixpoint a_read_exact_loop {S T} (Rd : a_reader S T) (fuel : nat) (done buf : list T) : fut S (list T * res unit io_error) :=
  match buf with
  | [] => ret (done, Ok tt)
  | _ :: _ =>
      match fuel with
      | 0 => out_of_fuel
      | Datatypes.S fuel =>
          let! (buf, r) := ar_read Rd buf in
          match r with
          | Err e => ret (done ++ buf, Err e)
          | Ok n =>
              let! rest := attempt (slice_from n buf) in
              if n =? 0 then ret (done ++ buf, Err (mk_io_error UnexpectedEof 0))
              else a_read_exact_loop Rd fuel (done ++ firstn n buf) rest
          end
      end
  end.

Definition a_read_exact {S T} (Rd : a_reader S T) (buf : list T) := a_read_exact_loop Rd (length buf) [] buf.

(** [WriteAllFuture] of futures-lite. *)
Fixpoint a_write_all_loop {S T} (W : a_writer S T) (fuel : nat) (buf : list T) : fut S (res unit io_error) :=
  match buf with
  | [] => ret (Ok tt)
  | _ :: _ =>
      match fuel with
      | 0 => out_of_fuel
      | Datatypes.S fuel =>
          let! r := aw_write W buf in
          match r with
          | Err e => ret (Err e)
          | Ok n =>
              let! rest := attempt (slice_from n buf) in
              if n =? 0 then ret (Err (mk_io_error WriteZero 0))
              else a_write_all_loop W fuel rest
          end
      end
  end.

Definition a_write_all {S T} (W : a_writer S T) (buf : list T) := a_write_all_loop W (length buf) buf.

(** The body of both [produce] methods that reads one byte, reader.rs 48-58 and 148-158. *)
Definition a_read_one {S T} (Rd : a_reader S T) (x0 : T) : fut S (res (T + unit) io_error) :=
  let! (buf, r) := a_read_exact Rd [x0] in
  match r with
  | Err err => if is_unexpected_eof err then ret (Ok (inr tt)) else ret (Err err)
  | Ok tt => let! b := attempt (index 0 buf) in ret (Ok (inl b))
  end.

(** The end of both [bulk_produce] methods, reader.rs 103-109 and 217-223. *)
Definition a_read_some {S T} (Rd : a_reader S T) (buf : list T) : fut S (list T * res (nat + unit) io_error) :=
  let! (buf, r) := ar_read Rd buf in
  match r with
  | Err err => ret (buf, Err err)
  | Ok amount => if amount =? 0 then ret (buf, Ok (inr tt)) else ret (buf, Ok (inl amount))
  end.

Section BufReader.
  Context {S T : Type} (Rd : a_buf_reader S T) (x0 : T).

  (** reader.rs 67-70. *)
  Definition a_br_slurp : fut S (res unit io_error) :=
    let! r := ar_fill_buf Rd in
    match r with
    | Err e => ret (Err e)
    | Ok _ => ret (Ok tt)
    end.

  (** reader.rs 77-91. *)
  Definition a_br_expose_items : fut S (res (list T + unit) io_error) :=
    let! r := ar_fill_buf Rd in
    match r with
    | Err e => ret (Err e)
    | Ok [] => ret (Ok (inr tt))
    | Ok _ =>
        let! r := ar_fill_buf Rd in
        match r with
        | Err e => ret (Err e)
        | Ok buf => ret (Ok (inl buf))
        end
    end.

  (** reader.rs 93-96. *)
  Definition a_br_consider_produced (amount : nat) : fut S (res unit io_error) :=
    let! _ := sync (fun s => let* s := ar_consume Rd amount s in Ret (s, tt)) in ret (Ok tt).

  (** [BufReaderToBulkProducer], reader.rs 38-111. *)
  Definition a_buf_reader_producer : a_bulk_producer S T unit io_error :=
    mk_a_bulk_producer
      (mk_a_buffered_producer (mk_a_producer (a_read_one Rd x0)) a_br_slurp)
      a_br_expose_items a_br_consider_produced (a_read_some Rd).
End BufReader.

Section Reader.
  Context {S Q T : Type} (Rd : a_reader S T) (I : queue Q T) (x0 : T).
  Notation state := (reader_state S Q).

  (** A future of the reader. *)
  Definition a_rs {X} (f : fut S X) : fut state X := within (@rs_reader S Q) (fun i s => mk_reader_state i (rs_queue s)) f.
  (** A call of a method of the queue. *)
  Definition a_rq {X} (f : Q -> outcome (Q * X)) : fut state X :=
    sync (fun s => let* (q, x) := f (rs_queue s) in Ret (mk_reader_state (rs_reader s) q, x)).

  (** reader.rs 144-162. *)
  Definition a_rd_produce : fut state (res (T + unit) io_error) :=
    let! o := a_rq (q_dequeue I) in
    match o with
    | None => a_rs (a_read_one Rd x0)
    | Some byte => ret (Ok (inl byte))
    end.

  (** reader.rs 170-173. *)
  Definition a_rd_slurp : fut state (res unit io_error) := ret (Ok tt).

  (** reader.rs 181-203. The slots are part of the queue; what was read is in them by the time [read] is ready. *)
  Definition a_rd_expose_items : fut state (res (list T + unit) io_error) :=
    let! s := get in
    if q_is_empty I (rs_queue s) then
      let! o := a_rq (q_expose_slots I) in
      let! buf_slots := attempt (expect o) in
      let! (buf, r) := a_rs (ar_read Rd (repeat x0 buf_slots)) in
      match r with
      | Err e => ret (Err e)
      | Ok num_read_bytes =>
          let! _ := a_rq (fun q => Ret (q_write I (firstn num_read_bytes buf) q, tt)) in
          if num_read_bytes =? 0 then ret (Ok (inr tt))
          else
            let! _ := a_rq (fun q => let* q := q_consider_enqueued I num_read_bytes q in Ret (q, tt)) in
            let! o := a_rq (q_expose_items I) in
            let! items := attempt (expect o) in
            ret (Ok (inl items))
      end
    else
      let! o := a_rq (q_expose_items I) in
      let! items := attempt (expect o) in
      ret (Ok (inl items)).

  (** reader.rs 205-208. *)
  Definition a_rd_consider_produced (amount : nat) : fut state (res unit io_error) :=
    let! _ := a_rq (fun q => let* q := q_consider_dequeued I amount q in Ret (q, tt)) in
    ret (Ok tt).

  (** reader.rs 211-227. *)
  Definition a_rd_bulk_produce (buf : list T) : fut state (list T * res (nat + unit) io_error) :=
    let! s := get in
    if q_is_empty I (rs_queue s) then a_rs (a_read_some Rd buf)
    else
      let! (buf, n) := a_rq (q_bulk_dequeue I buf) in
      ret (buf, Ok (inl n)).

  (** [ReaderToBulkProducer], reader.rs 134-228. *)
  Definition a_reader_producer : a_bulk_producer state T unit io_error :=
    mk_a_bulk_producer
      (mk_a_buffered_producer (mk_a_producer a_rd_produce) a_rd_slurp)
      a_rd_expose_items a_rd_consider_produced a_rd_bulk_produce.
End Reader.

Section Writer.
  Context {S Q T : Type} (W : a_writer S T) (I : queue Q T).
  Notation state := (writer_state S Q).

  Definition a_ws {X} (f : fut S X) : fut state X := within (@ws_writer S Q) (fun i s => mk_writer_state i (ws_queue s)) f.
  Definition a_wq {X} (f : Q -> outcome (Q * X)) : fut state X :=
    sync (fun s => let* (q, x) := f (ws_queue s) in Ret (mk_writer_state (ws_writer s) q, x)).

  (** writer.rs 33-45. The items stay in the queue until all of them are written. *)
  Fixpoint a_flush_internal_buffer (fuel : nat) : fut state (res unit io_error) :=
    match fuel with
    | 0 => out_of_fuel
    | Datatypes.S fuel =>
        let! o := a_wq (q_expose_items I) in
        match o with
        | None => ret (Ok tt)
        | Some items =>
            let! r := a_ws (a_write_all W items) in
            match r with
            | Err e => ret (Err e)
            | Ok tt =>
                let written := length items in
                let! _ := a_wq (fun q => let* q := q_consider_dequeued I written q in Ret (q, tt)) in
                a_flush_internal_buffer fuel
            end
        end
    end.

  (** [self.flush_internal_buffer().await?] followed by [k]. *)
  Definition a_flushed {X : Type} (fuel : nat) (k : fut state (res X io_error)) : fut state (res X io_error) :=
    let! r := a_flush_internal_buffer fuel in
    match r with
    | Err e => ret (Err e)
    | Ok tt => k
    end.

  Context (fuel : nat).

  (** writer.rs 57-61. *)
  Definition a_wr_consume (item : T) : fut state (res unit io_error) := a_flushed fuel (a_ws (a_write_all W [item])).

  (** writer.rs 64-67. *)
  Definition a_wr_close (_fin : unit) : fut state (res unit io_error) := a_flushed fuel (a_ws (aw_close W)).

  (** writer.rs 75-78. *)
  Definition a_wr_flush : fut state (res unit io_error) := a_flushed fuel (a_ws (aw_flush W)).

  (** writer.rs 86-92. *)
  Definition a_wr_expose_slots : fut state (res nat io_error) :=
    a_flushed fuel (let! o := a_wq (q_expose_slots I) in
                    let! n := attempt (expect o) in
                    ret (Ok n)).

  (** writer.rs 94-97. *)
  Definition a_wr_consume_slots (amount : nat) : fut state (res unit io_error) :=
    let! _ := a_wq (fun q => let* q := q_consider_enqueued I amount q in Ret (q, tt)) in
    ret (Ok tt).

  (** writer.rs 99-111. *)
  Definition a_wr_bulk_consume (buf : list T) : fut state (res nat io_error) :=
    a_flushed fuel (let! r := a_ws (aw_write W buf) in
                    match r with
                    | Err e => ret (Err e)
                    | Ok written_amount =>
                        if written_amount =? 0 then ret (Err (mk_io_error WriteZero 1)) else ret (Ok written_amount)
                    end).

  (** [WriterToBulkConsumer], writer.rs 48-112. *)
  Definition a_writer_consumer : a_bulk_consumer state T unit io_error :=
    mk_a_bulk_consumer
      (mk_a_buffered_consumer (mk_a_consumer a_wr_consume a_wr_close) a_wr_flush)
      a_wr_expose_slots (wr_write I) a_wr_consume_slots a_wr_bulk_consume.
End Writer.

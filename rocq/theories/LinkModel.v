(** Two tasks that send and receive values over the connection of JoinModel with what the library offers: [pipe] or [bulk_pipe] between a
    producer and the adaptors for writers and readers, and the encoder and decoder adaptors around these.

    The repository has no such program; the functions called are those of ufotofu/src/lib.rs 541-613 (AsyncModel), producer/reader.rs and consumer/writer.rs (AsyncIoModel),
    adaptors/encoder.rs and adaptors/decoder.rs of ufotofu_codec, and ufotofu_codec_endian (AsyncAdaptorModel). *)
From Coq Require Import Bool List Arith ZArith Eqdep_dec.
From Coq.Init Require Import Byte.
From Verif Require Import Prelude QueueModel Traits BasicModel CodecModel EndianModel IoModel FuzzModel AsyncModel AsyncAdaptorModel AsyncIoModel JoinModel.
Import ListNotations.
Set Implicit Arguments.

Global Instance num_eq_dec (i : int) : eq_dec (num i).
Proof.
  intros [x Hx] [y Hy]. destruct (Z.eq_dec x y) as [->|H]; [left|right; congruence].
  f_equal. apply UIP_dec. apply bool_dec.
Defined.
Global Instance byte_eq_dec : eq_dec byte := Byte.byte_eq_dec.

(** Which of the two functions is used. *)
Inductive way : Type := ItemByItem | InBulk.

Definition piping {SP SC T F PE CE} (how : way) (fuel : nat) (P : a_bulk_producer SP T F PE) (C : a_bulk_consumer SC T F CE)
  : fut (SP * SC) (res unit (pipe_error PE CE)) :=
  match how with
  | ItemByItem => a_pipe fuel P C
  | InBulk => a_bulk_pipe fuel P C
  end.

Section Tasks.
  Context {T L PE : Type} (x0 : T) (fuel wait capacity queue_capacity : nat).

  Definition a_conn_consumer := a_writer_consumer (T := T) (conn_writer capacity wait) (fixed_queue T) fuel.
  Definition a_conn_producer := a_reader_producer (T := T) (conn_reader wait) (fixed_queue T) x0.
  (** The same behind a buffered reader with [queue_capacity] slots. *)
  Definition a_conn_buf_producer := a_buf_reader_producer (T := T) (buffered_reader (conn_reader wait) x0 queue_capacity) x0.

  Definition link_sender (s : L) : L * writer_state (conn T) (fixed T) := (s, mk_writer_state (conn_new []) (fixed_new x0 queue_capacity)).
  Definition link_receiver {V : Type} : reader_state (conn T) (fixed T) * into_vec V :=
    (mk_reader_state (conn_new []) (fixed_new x0 queue_capacity), into_vec_new).
  Definition link_buf_receiver {V : Type} : br (conn T) T * into_vec V := (mk_br (conn_new []) [], into_vec_new).

  (** [pipe(producer, writer).await.unwrap()] *)
  Definition link_send (how : way) (P : a_bulk_producer L T unit PE) (s : L) : task (L * writer_state (conn T) (fixed T)) :=
    Running (let! r := piping how fuel P a_conn_consumer in attempt (unwrap r)) (link_sender s).
End Tasks.

Section Receive.
  Context {S V E : Type} {H : eq_dec V}.

  (** [pipe(..).await.unwrap(); assert_eq!(into_vec.as_ref(), expected)] *)
  Definition collect (piped : fut (S * into_vec V) (res unit E)) (expected : list V) : fut (S * into_vec V) unit :=
    let! r := piped in
    let! _ := attempt (unwrap r) in
    let! s := get in
    attempt (let* v := into_vec_as_ref (snd s) in assert_eq v expected).
End Receive.

Section ReceiveTasks.
  Context {T : Type} {H : eq_dec T} (x0 : T) (fuel wait queue_capacity : nat) (how : way) (expected : list T).

  Definition link_receive : task (reader_state (conn T) (fixed T) * into_vec T) :=
    Running (collect (piping how fuel (a_conn_producer x0 wait) (a_into_vec x0)) expected) (link_receiver x0 queue_capacity).
  Definition link_buf_receive : task (br (conn T) T * into_vec T) :=
    Running (collect (piping how fuel (a_conn_buf_producer x0 wait queue_capacity) (a_into_vec x0)) expected) (link_buf_receiver).
End ReceiveTasks.

(** Integers: an encoder around the writer, a decoder around the reader. *)
Section Codec.
  Context {L PE : Type} (w : wrapper) (fuel wait capacity queue_capacity : nat).

  Definition link_send_encoded (P : a_producer L (num (wrapped w)) unit PE) (s : L) : task (L * writer_state (conn byte) (fixed byte)) :=
    Running (let! r := a_pipe fuel P (a_encoder (a_endian_encode w) (a_conn_consumer fuel wait capacity)) in attempt (unwrap r)) (link_sender x00 queue_capacity s).

  Definition zero : num (wrapped w) := num_of (wrapped w) 0%Z.
  Definition link_receive_decoded (expected : list (num (wrapped w))) : task (reader_state (conn byte) (fixed byte) * into_vec (num (wrapped w))) :=
    Running (collect (a_pipe fuel (a_decoder (a_endian_decode w) (a_conn_producer x00 wait)) (a_into_vec zero)) expected) (link_receiver x00 queue_capacity).
  Definition link_buf_receive_decoded (expected : list (num (wrapped w))) : task (br (conn byte) byte * into_vec (num (wrapped w))) :=
    Running (collect (a_pipe fuel (a_decoder (a_endian_decode w) (a_conn_buf_producer x00 wait queue_capacity)) (a_into_vec zero)) expected) (link_buf_receiver).
End Codec.

(** Where the connection is. *)
Definition link_sender_holds {T L} : holds T (L * writer_state (conn T) (fixed T)) :=
  mk_holds (fun s => ws_writer (snd s)) (fun c s => (fst s, mk_writer_state c (ws_queue (snd s)))).
Definition link_receiver_holds {T V} : holds T (reader_state (conn T) (fixed T) * into_vec V) :=
  mk_holds (fun s => rs_reader (fst s)) (fun c s => (mk_reader_state c (rs_queue (fst s)), snd s)).
Definition link_buf_receiver_holds {T V} : holds T (br (conn T) T * into_vec V) :=
  mk_holds (fun s => br_inner (fst s)) (fun c s => (mk_br c (br_rest (fst s)), snd s)).

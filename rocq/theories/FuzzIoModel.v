(** Model of the fuzz targets ufotofu/compat.rs and ufotofu/compat_buf_read.rs.

    Two tasks run concurrently, one sends the input over a TCP connection and one receives it.
    Simplifications: connecting, binding and accepting succeed; the network buffers everything, so the model sends first and
    receives then (JoinModel lifts this); [transfer] turns what the sending end of the connection has become into the receiving end. How many
    bytes the two ends accept and deliver per call is up to them. *)
From Coq Require Import Bool List Arith.
From Verif Require Import Prelude QueueModel Traits ScramblerModel IoModel FuzzModel.
Import ListNotations.
Set Implicit Arguments.
Set Warnings "-abstract-large-number".

Section Send.
  Context {S E : Type} (C : consumer S nat unit E).

  (** [for datum in input.iter() { assert_eq!((), sender.consume(datum).await.unwrap()) }], compat.rs 35-37. *)
  Fixpoint send_each (input : list nat) (sender : S) : outcome S :=
    match input with
    | [] => Ret sender
    | datum :: input =>
        let* (sender, r) := c_consume C datum sender in
        let* r := unwrap r in
        assert_eq tt r ;;
        send_each input sender
    end.

  (** The task [send] after the setup, compat.rs 35-38, compat_buf_read.rs 34-37. *)
  Definition fuzz_send (input : list nat) (sender : S) : outcome S :=
    let* sender := send_each input sender in
    let* (sender, r) := c_close C tt sender in
    let* r := unwrap r in
    assert_eq tt r ;;
    Ret sender.
End Send.

Section Receive.
  Context {S E : Type} (P : producer S nat unit E).

  (** The task [receive] after the setup, compat.rs 49-53, compat_buf_read.rs 48-52. *)
  Fixpoint fuzz_receive (input : list nat) (receiver : S) : outcome unit :=
    match input with
    | [] =>
        let* (receiver, r) := p_produce P receiver in
        let* r := unwrap r in
        assert_eq (inr tt) r
    | datum :: input =>
        let* (receiver, r) := p_produce P receiver in
        let* r := unwrap r in
        assert_eq (inl datum) r ;;
        fuzz_receive input receiver
    end.
End Receive.

(** [capacity.clamp(1, 2048)]. *)
Definition clamp (low high n : nat) : nat := Nat.min high (Nat.max low n).

Section Compat.
  Context (dbg : bool) (fuel : nat) {SW : Type} (W : writer SW nat).

  (** The sending end with its adaptors, compat.rs 31-33. *)
  Definition compat_consumer : bulk_consumer (cscr (writer_state SW (fixed nat)) nat) nat unit io_error :=
    cscr_consumer dbg 0 fuel (writer_consumer W (fixed_queue nat) fuel).

  Definition compat_sender (stream : SW) (sender_queue_capacity : nat) (consume_ops : list cscr_op)
    : cscr (writer_state SW (fixed nat)) nat :=
    let sender_queue := fixed_new 0 sender_queue_capacity in
    let sender := mk_writer_state stream sender_queue in
    cscr_new_with_capacity 0 sender consume_ops scrambler_capacity.

  (** The whole target, compat.rs 15-58. *)
  Definition fuzz_compat {SR : Type} (Rd : reader SR nat) (transfer : SW -> SR) (stream : SW) (input : list nat)
      (sender_queue_capacity rec_queue_capacity : nat) (consume_ops : list cscr_op) (produce_ops : list pscr_op)
    : outcome unit :=
    let sender_queue_capacity := clamp 1 2048 sender_queue_capacity in
    let rec_queue_capacity := clamp 1 2048 rec_queue_capacity in
    let* sender := fuzz_send compat_consumer input (compat_sender stream sender_queue_capacity consume_ops) in
    let stream := transfer (ws_writer (cs_inner sender)) in
    let rec_queue := fixed_new 0 rec_queue_capacity in
    let receiver := mk_reader_state stream rec_queue in
    let receiver := pscr_new_with_capacity 0 receiver produce_ops scrambler_capacity in
    fuzz_receive (pscr_producer dbg fuel (reader_producer Rd (fixed_queue nat) 0)) input receiver.

  (** The same with a buffered reader at the receiving end, compat_buf_read.rs 16-57. *)
  Definition fuzz_compat_buf_read {SR : Type} (Rd : buf_reader SR nat) (transfer : SW -> SR) (stream : SW) (input : list nat)
      (sender_queue_capacity : nat) (consume_ops : list cscr_op) (produce_ops : list pscr_op) : outcome unit :=
    let sender_queue_capacity := clamp 1 2048 sender_queue_capacity in
    let* sender := fuzz_send compat_consumer input (compat_sender stream sender_queue_capacity consume_ops) in
    let stream := transfer (ws_writer (cs_inner sender)) in
    let receiver := pscr_new_with_capacity 0 stream produce_ops scrambler_capacity in
    fuzz_receive (pscr_producer dbg fuel (buf_reader_producer Rd 0)) input receiver.
End Compat.

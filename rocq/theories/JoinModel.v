(** Model of the fuzz targets ufotofu/compat.rs and ufotofu/compat_buf_read.rs, poll by poll, with both tasks running concurrently.

    FuzzIoModel lets the sender finish before the receiver starts. Here, [join!] polls both, and the connection
    between them holds a bounded number of bytes: a write waits for room, a read waits for bytes.
    Simplifications: connecting, binding and accepting succeed and are done before the model starts; the connection is a queue of bytes, how many
    of them it moves per call is up to [cn_limits]; it calls the waker of the waiting end as soon as there is room or a byte. Waiting takes fuel. *)
From Coq Require Import Bool List Arith.
From Verif Require Import Prelude QueueModel Traits ScramblerModel IoModel FuzzModel FuzzIoModel AsyncModel AsyncAdaptorModel AsyncIoModel.
Import ListNotations.
Set Implicit Arguments.
Set Warnings "-abstract-large-number".

(** ** The connection *)
Record conn (T : Type) : Type := mk_conn {
  cn_buf : list T;      (* sent and not yet read *)
  cn_closed : bool;       (* the sending end is closed *)
  cn_sent : list T;     (* everything that was ever sent; nothing looks at it *)
  cn_limits : list nat;   (* at most how many bytes the next calls move *)
  cn_reading : bool;      (* a read is waiting *)
  cn_writing : bool;      (* a write is waiting *)
  cn_woken : bool         (* the waker was called since this was last reset *)
}.

Section Connection.
Context {T : Type}.

Definition conn_new (limits : list nat) : conn T := mk_conn [] false [] limits false false false.

(** How many bytes to move when [n] could be moved: at least one. *)
Definition cn_amount (c : conn T) (n : nat) : nat :=
  match cn_limits c with
  | [] => n
  | l :: _ => Nat.min (Nat.max 1 l) n
  end.

(** [poll_write]: [None] if the write has to wait. After closing, writing does not wait; nobody does that. *)
Definition conn_write_now (capacity : nat) (data : list T) (c : conn T) : option (conn T * res nat io_error) :=
  match data with
  | [] => Some (c, Ok 0)
  | _ :: _ =>
      let room := if cn_closed c then length data else capacity - length (cn_buf c) in
      if room =? 0 then None
      else
        let n := cn_amount c (Nat.min room (length data)) in
        Some (mk_conn (cn_buf c ++ firstn n data) (cn_closed c) (cn_sent c ++ firstn n data) (tl (cn_limits c))
                false (cn_writing c) (cn_woken c || cn_reading c), Ok n)
  end.
Definition conn_await_room (c : conn T) : conn T :=
  mk_conn (cn_buf c) (cn_closed c) (cn_sent c) (cn_limits c) (cn_reading c) true (cn_woken c).

(** [poll_flush]: there is nothing to do. *)
Definition conn_flush_now (c : conn T) : option (conn T * res unit io_error) := Some (c, Ok tt).

(** [poll_close]. *)
Definition conn_close_now (c : conn T) : option (conn T * res unit io_error) :=
  Some (mk_conn (cn_buf c) true (cn_sent c) (cn_limits c) false (cn_writing c) (cn_woken c || cn_reading c), Ok tt).

(** [poll_read]: [None] if the read has to wait. *)
Definition conn_read_now (buf : list T) (c : conn T) : option (conn T * (list T * res nat io_error)) :=
  match buf with
  | [] => Some (c, (buf, Ok 0))
  | _ :: _ =>
      match cn_buf c with
      | [] => if cn_closed c then Some (c, (buf, Ok 0)) else None
      | _ :: _ =>
          let n := cn_amount c (Nat.min (length (cn_buf c)) (length buf)) in
          Some (mk_conn (skipn n (cn_buf c)) (cn_closed c) (cn_sent c) (tl (cn_limits c)) (cn_reading c) false (cn_woken c || cn_writing c),
                (firstn n (cn_buf c) ++ skipn n buf, Ok n))
      end
  end.
Definition conn_await_bytes (c : conn T) : conn T :=
  mk_conn (cn_buf c) (cn_closed c) (cn_sent c) (cn_limits c) true (cn_writing c) (cn_woken c).

(** A future that tries again with every poll. *)
Fixpoint conn_wait {X} (now : conn T -> option (conn T * X)) (wait : conn T -> conn T) (fuel : nat) : fut (conn T) X :=
  Fut (fun c =>
    match now c with
    | Some (c, x) => Ret (c, Ready x)
    | None =>
        match fuel with
        | 0 => NoFuel
        | S fuel => Ret (wait c, Pending false (conn_wait now wait fuel))
        end
    end).

Definition conn_writer (capacity fuel : nat) : a_writer (conn T) T :=
  mk_a_writer (fun data => conn_wait (conn_write_now capacity data) conn_await_room fuel)
    (conn_wait conn_flush_now conn_await_room fuel) (conn_wait conn_close_now conn_await_room fuel).
Definition conn_reader (fuel : nat) : a_reader (conn T) T :=
  mk_a_reader (fun buf => conn_wait (conn_read_now buf) conn_await_bytes fuel).
End Connection.

(** ** [BufReader] of futures-lite, with which compat_buf_read.rs wraps the receiving end (line 43) *)

(** The inner reader and the part of the buffer that was filled and not consumed. *)
Record br (S T : Type) : Type := mk_br { br_inner : S; br_rest : list T }.
Arguments mk_br {S T}.

Section BufReader.
  Context {S T : Type} (Rd : a_reader S T) (x0 : T) (capacity : nat).
  Notation state := (br S T).

  Definition a_br {X} (f : fut S X) : fut state X := within (@br_inner S T) (fun i s => mk_br i (br_rest s)) f.

  (** [poll_fill_buf]: reads only if everything in the buffer was consumed. *)
  Definition br_fill_buf : fut state (res (list T) io_error) :=
    let! s := get in
    match br_rest s with
    | [] =>
        let! (buf, r) := a_br (ar_read Rd (repeat x0 capacity)) in
        match r with
        | Err e => ret (Err e)
        | Ok n =>
            let! _ := sync (fun s : state => Ret (mk_br (br_inner s) (firstn n buf), tt)) in
            ret (Ok (firstn n buf))
        end
    | rest => ret (Ok rest)
    end.

  (** [consume] *)
  Definition br_consume (amount : nat) (s : state) : outcome state := Ret (mk_br (br_inner s) (skipn amount (br_rest s))).

  (** [poll_read]: large reads bypass an empty buffer. *)
  Definition br_read (dest : list T) : fut state (list T * res nat io_error) :=
    let! s := get in
    if match br_rest s with [] => capacity <=? length dest | _ => false end then a_br (ar_read Rd dest)
    else
      let! r := br_fill_buf in
      match r with
      | Err e => ret (dest, Err e)
      | Ok rest =>
          let n := Nat.min (length rest) (length dest) in
          let! _ := sync (fun s => let* s := br_consume n s in Ret (s, tt)) in
          ret (firstn n rest ++ skipn n dest, Ok n)
      end.

  Definition buffered_reader : a_buf_reader state T := mk_a_buf_reader (mk_a_reader br_read) br_fill_buf br_consume.
End BufReader.

(** ** The tasks *)
Section Send.
  Context {S E : Type} (C : a_consumer S nat unit E).

  (** compat.rs 35-37. *)
  Fixpoint a_send_each (input : list nat) : fut S unit :=
    match input with
    | [] => ret tt
    | datum :: input =>
        let! r := ac_consume C datum in
        let! r := attempt (unwrap r) in
        let! _ := attempt (assert_eq tt r) in
        a_send_each input
    end.

  (** The task [send] after the setup, compat.rs 35-38, compat_buf_read.rs 34-37. *)
  Definition a_fuzz_send (input : list nat) : fut S unit :=
    let! _ := a_send_each input in
    let! r := ac_close C tt in
    let! r := attempt (unwrap r) in
    attempt (assert_eq tt r).
End Send.

Section Receive.
  Context {S E : Type} (P : a_producer S nat unit E).

  (** The task [receive] after the setup, compat.rs 49-53, compat_buf_read.rs 48-52. *)
  Fixpoint a_fuzz_receive (input : list nat) : fut S unit :=
    match input with
    | [] =>
        let! r := ap_produce P in
        let! r := attempt (unwrap r) in
        attempt (assert_eq (inr tt) r)
    | datum :: input =>
        let! r := ap_produce P in
        let! r := attempt (unwrap r) in
        let! _ := attempt (assert_eq (inl datum) r) in
        a_fuzz_receive input
    end.
End Receive.

(** ** [join!] *)

(** An [async] block with what it owns; [MaybeDone] of the crate futures. *)
Inductive task (S : Type) : Type :=
| Running (f : fut S unit) (s : S)
| Done.
Arguments Running {S} f s.
Arguments Done {S}.

(** How a task that owns an end of the connection gets at it. What its state says about the connection between two polls is
    out of date. *)
Record holds (T S : Type) : Type := mk_holds { h_conn : S -> conn T; h_set : conn T -> S -> S }.

(** Polls a task unless it is done. *)
Definition poll_task {T S} (h : holds T S) (c : conn T) (t : task S) : outcome (conn T * task S) :=
  match t with
  | Done => Ret (c, Done)
  | Running f s =>
      let* (s, r) := poll f (h_set h c s) in
      match r with
      | Ready tt => Ret (h_conn h s, Done)
      | Pending _ f => Ret (h_conn h s, Running f s)
      end
  end.

(** The two tasks and the connection. *)
Record joint (T SR SS : Type) : Type := mk_joint { j_conn : conn T; j_receive : task SR; j_send : task SS }.
Arguments mk_joint {T SR SS}.

Definition reset_woken {T} (c : conn T) : conn T :=
  mk_conn (cn_buf c) (cn_closed c) (cn_sent c) (cn_limits c) (cn_reading c) (cn_writing c) false.

Section Join.
  Context {T SR SS : Type} (hr : holds T SR) (hs : holds T SS).

  Definition poll_receive (j : joint T SR SS) : outcome (joint T SR SS) :=
    let* (c, t) := poll_task hr (j_conn j) (j_receive j) in Ret (mk_joint c t (j_send j)).
  Definition poll_send (j : joint T SR SS) : outcome (joint T SR SS) :=
    let* (c, t) := poll_task hs (j_conn j) (j_send j) in Ret (mk_joint c (j_receive j) t).

  (** One poll of [join!(receive, send)], compat.rs 56: polls both in this order. *)
  Definition poll_join (j : joint T SR SS) : outcome (joint T SR SS) :=
    let* j := poll_receive j in poll_send j.

  Definition both_done (j : joint T SR SS) : bool :=
    match j_receive j, j_send j with
    | Done, Done => true
    | _, _ => false
    end.

  (** [pollster::block_on], compat.rs 28-57: polls again when the waker has been called, and else sleeps forever. *)
  Fixpoint block_on_join (fuel : nat) (j : joint T SR SS) : outcome (joint T SR SS) :=
    match fuel with
    | 0 => NoFuel
    | S fuel =>
        let* j := poll_join (mk_joint (reset_woken (j_conn j)) (j_receive j) (j_send j)) in
        if both_done j then Ret j
        else if cn_woken (j_conn j) then block_on_join fuel j
        else NoFuel
    end.
End Join.

(** ** The targets *)

Section Compat.
  Context (dbg : bool) (fuel wait capacity : nat).

  (** compat.rs 31-39. *)
  Definition compat_send (input : list nat) (sender_queue_capacity : nat) (consume_ops : list cscr_op)
      : task (cscr (writer_state (conn nat) (fixed nat)) nat) :=
    Running (a_fuzz_send (a_cscr_consumer dbg 0 fuel (a_writer_consumer (conn_writer capacity wait) (fixed_queue nat) fuel)) input)
      (compat_sender (conn_new []) (clamp 1 2048 sender_queue_capacity) consume_ops).

  (** compat.rs 45-54. *)
  Definition compat_receive (input : list nat) (rec_queue_capacity : nat) (produce_ops : list pscr_op)
      : task (pscr (reader_state (conn nat) (fixed nat)) nat unit io_error) :=
    Running (a_fuzz_receive (a_pscr_producer dbg fuel (a_reader_producer (conn_reader wait) (fixed_queue nat) 0)) input)
      (pscr_new_with_capacity 0 (mk_reader_state (conn_new []) (fixed_new 0 (clamp 1 2048 rec_queue_capacity))) produce_ops scrambler_capacity).

  (** compat_buf_read.rs 43-53. [buf_capacity] is 8 KiB in futures-lite. *)
  Definition compat_buf_receive (buf_capacity : nat) (input : list nat) (produce_ops : list pscr_op)
      : task (pscr (br (conn nat) nat) nat unit io_error) :=
    Running (a_fuzz_receive (a_pscr_producer dbg fuel (a_buf_reader_producer (buffered_reader (conn_reader wait) 0 buf_capacity) 0)) input)
      (pscr_new_with_capacity 0 (mk_br (conn_new []) []) produce_ops scrambler_capacity).
End Compat.

(** Where the tasks keep the connection. *)
Definition sender_holds : holds nat (cscr (writer_state (conn nat) (fixed nat)) nat) :=
  mk_holds (fun s : cscr (writer_state (conn nat) (fixed nat)) nat => ws_writer (cs_inner s))
    (fun c s => cs_with_inner (mk_writer_state c (ws_queue (cs_inner s))) s).
Definition receiver_holds : holds nat (pscr (reader_state (conn nat) (fixed nat)) nat unit io_error) :=
  mk_holds (fun s : pscr (reader_state (conn nat) (fixed nat)) nat unit io_error => rs_reader (ps_inner s))
    (fun c s => ps_with_inner (mk_reader_state c (rs_queue (ps_inner s))) s).
Definition buf_receiver_holds : holds nat (pscr (br (conn nat) nat) nat unit io_error) :=
  mk_holds (fun s : pscr (br (conn nat) nat) nat unit io_error => br_inner (ps_inner s))
    (fun c s => ps_with_inner (mk_br c (br_rest (ps_inner s))) s).

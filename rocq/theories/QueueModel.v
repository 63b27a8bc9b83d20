(** Model of the [Queue] trait and of its two implementations
    (ufotofu_queues/src/lib.rs, fixed.rs, static_.rs).

    Simplifications: [Clone] is the identity; a mutable slice of slots is
    its length, and what the caller does with it is a separate function
    ([q_write]) that stores items into the first slots of the region that
    [expose_slots] returns in the current state. Allocation never fails
    (MemoryModel.v has an allocator that may refuse). The nightly
    duplicates of [Fixed] (fixed.rs 139-237, 297-353, 392-427) are textually the same code and not
    modelled again. *)
From Coq Require Import List Arith.
From Verif Require Import Prelude.
Import ListNotations.
Set Implicit Arguments.

(** The [Queue] trait, ufotofu_queues/src/lib.rs 39-157. [q_write] stands for
    the caller writing through the slice returned by [expose_slots]. *)
Record queue (Q T : Type) : Type := {
  q_len : Q -> nat;
  q_enqueue : T -> Q -> outcome (Q * option T);
  q_expose_slots : Q -> outcome (Q * option nat);
  q_write : list T -> Q -> Q;
  q_consider_enqueued : nat -> Q -> outcome Q;
  q_dequeue : Q -> outcome (Q * option T);
  q_expose_items : Q -> outcome (Q * option (list T));
  q_consider_dequeued : nat -> Q -> outcome Q
}.

(** [Queue::is_empty], lib.rs 47-49. *)
Definition q_is_empty {Q T} (I : queue Q T) (q : Q) : bool := q_len I q =? 0.

(** [Queue::bulk_enqueue], lib.rs 94-105. *)
Definition q_bulk_enqueue {Q T} (I : queue Q T) (buffer : list T) (q : Q)
  : outcome (Q * nat) :=
  let* (q, slots) := q_expose_slots I q in
  match slots with
  | None => Ret (q, 0)
  | Some slots =>
      let amount := Nat.min slots (length buffer) in
      let q := q_write I (firstn amount buffer) q in
      let* q := q_consider_enqueued I amount q in
      Ret (q, amount)
  end.

(** [Queue::bulk_dequeue], lib.rs 145-156. Returns the overwritten buffer. *)
Definition q_bulk_dequeue {Q T} (I : queue Q T) (buffer : list T) (q : Q)
  : outcome (Q * (list T * nat)) :=
  let* (q, slots) := q_expose_items I q in
  match slots with
  | None => Ret (q, (buffer, 0))
  | Some slots =>
      let amount := Nat.min (length slots) (length buffer) in
      let buffer := firstn amount slots ++ skipn amount buffer in
      let* q := q_consider_dequeued I amount q in
      Ret (q, (buffer, amount))
  end.

(** ** [Fixed] *)

(** fixed.rs 18-25. *)
Record fixed (T : Type) : Type := mk_fixed {
  fx_data : list T;
  fx_read : nat;
  fx_amount : nat
}.

(** [Fixed::new_with_manual_tmps], fixed.rs 70-82: [tmp i] is the value of the
    i-th call of the closure. [Fixed::new] (fixed.rs 43-52) is the
    special case of a constant [tmp]. *)
Definition fixed_new_with_manual_tmps {T} (capacity : nat) (tmp : nat -> T) : fixed T :=
  mk_fixed (map tmp (seq 0 capacity)) 0 0.

Definition fixed_new {T} (default : T) (capacity : nat) : fixed T :=
  fixed_new_with_manual_tmps capacity (fun _ => default).

(** [Fixed::capacity], fixed.rs 130-132. *)
Definition fixed_capacity {T} (q : fixed T) : nat := length (fx_data q).

(** fixed.rs 103-105. *)
Definition fixed_is_data_contiguous {T} (q : fixed T) : bool :=
  fx_read q + fx_amount q <? fixed_capacity q.

(** fixed.rs 134-136. *)
Definition fixed_write_to {T} (q : fixed T) : outcome nat :=
  cmod (fx_read q + fx_amount q) (fixed_capacity q).

(** fixed.rs 108-114. *)
Definition fixed_readable_slice {T} (q : fixed T) : outcome (list T) :=
  if fixed_is_data_contiguous q then
    let* write_to := fixed_write_to q in
    slice (fx_read q) write_to (fx_data q)
  else slice_from (fx_read q) (fx_data q).

(** fixed.rs 117-125; the offset and the length of the returned mutable slice. *)
Definition fixed_writeable_slice {T} (q : fixed T) : outcome (nat * nat) :=
  let capacity := fixed_capacity q in
  let* write_to := fixed_write_to q in
  if fixed_is_data_contiguous q then
    let* s := slice write_to capacity (fx_data q) in
    Ret (write_to, length s)
  else
    let* s := slice write_to (fx_read q) (fx_data q) in
    Ret (write_to, length s).

(** [Queue for Fixed], fixed.rs 240-295. *)
Definition fixed_enqueue {T} (item : T) (q : fixed T) : outcome (fixed T * option T) :=
  if fx_amount q =? fixed_capacity q then Ret (q, Some item)
  else
    let* write_to := fixed_write_to q in
    let* data := index_set write_to item (fx_data q) in
    Ret (mk_fixed data (fx_read q) (fx_amount q + 1), None).

Definition fixed_expose_slots {T} (q : fixed T) : outcome (fixed T * option nat) :=
  if fx_amount q =? fixed_capacity q then Ret (q, None)
  else
    let* (_, n) := fixed_writeable_slice q in
    Ret (q, Some n).

(** The caller storing [ys] through the slice of [expose_slots]; stores beyond
    that slice are impossible in Rust, here they are dropped. *)
Definition fixed_write {T} (ys : list T) (q : fixed T) : fixed T :=
  match fixed_writeable_slice q with
  | Ret (o, n) => mk_fixed (blit o (firstn n ys) (fx_data q)) (fx_read q) (fx_amount q)
  | _ => q
  end.

Definition fixed_consider_enqueued {T} (amount : nat) (q : fixed T) : outcome (fixed T) :=
  Ret (mk_fixed (fx_data q) (fx_read q) (fx_amount q + amount)).

Definition fixed_dequeue {T} (q : fixed T) : outcome (fixed T * option T) :=
  if fx_amount q =? 0 then Ret (q, None)
  else
    let previous_read := fx_read q in
    let* read := cmod (fx_read q + 1) (fixed_capacity q) in
    let* amount := csub (fx_amount q) 1 in
    let* item := index previous_read (fx_data q) in
    Ret (mk_fixed (fx_data q) read amount, Some item).

Definition fixed_expose_items {T} (q : fixed T) : outcome (fixed T * option (list T)) :=
  if fx_amount q =? 0 then Ret (q, None)
  else
    let* s := fixed_readable_slice q in
    Ret (q, Some s).

Definition fixed_consider_dequeued {T} (amount : nat) (q : fixed T) : outcome (fixed T) :=
  let* read := cmod (fx_read q + amount) (fixed_capacity q) in
  let* amount := csub (fx_amount q) amount in
  Ret (mk_fixed (fx_data q) read amount).

Definition fixed_queue (T : Type) : queue (fixed T) T := {|
  q_len := @fx_amount T;
  q_enqueue := @fixed_enqueue T;
  q_expose_slots := @fixed_expose_slots T;
  q_write := @fixed_write T;
  q_consider_enqueued := @fixed_consider_enqueued T;
  q_dequeue := @fixed_dequeue T;
  q_expose_items := @fixed_expose_items T;
  q_consider_dequeued := @fixed_consider_dequeued T
|}.

(** [Debug for Fixed], fixed.rs 356-390: capacity, len, and the listed data. *)
Definition fixed_debug_data {T} (q : fixed T) : outcome (list T) :=
  if fixed_is_data_contiguous q then
    let* write_to := fixed_write_to q in
    slice (fx_read q) write_to (fx_data q)
  else
    let* s1 := slice_from (fx_read q) (fx_data q) in
    let* n := csub (fx_amount q) (length s1) in
    let* s2 := slice 0 n (fx_data q) in
    Ret (s1 ++ s2).

Definition fixed_debug {T} (q : fixed T) : outcome (nat * nat * list T) :=
  let* d := fixed_debug_data q in
  Ret (fixed_capacity q, fx_amount q, d).

(** ** [Static] *)

(** static_.rs 10-17. The array type [[T; N]] is a list; that it has length [N] is
    an invariant of the type, see [static_wf]. *)
Record static (T : Type) : Type := mk_static {
  st_data : list T;
  st_read : nat;
  st_amount : nat
}.

Definition static_wf {T} (N : nat) (q : static T) : Prop := length (st_data q) = N.

Section Static.
  Context {T : Type} (N : nat).

  (** [Static::new_with_manual_tmps], static_.rs 38-44; [new] (27-33) is the
      constant case. *)
  Definition static_new_with_manual_tmps (tmp : nat -> T) : static T :=
    mk_static (map tmp (seq 0 N)) 0 0.

  Definition static_new (default : T) : static T :=
    static_new_with_manual_tmps (fun _ => default).

  (** static_.rs 48-50. *)
  Definition static_is_data_contiguous (q : static T) : bool :=
    st_read q + st_amount q <? N.

  (** static_.rs 72-74. *)
  Definition static_write_to (q : static T) : outcome nat :=
    cmod (st_read q + st_amount q) N.

  (** static_.rs 53-59. *)
  Definition static_readable_slice (q : static T) : outcome (list T) :=
    if static_is_data_contiguous q then
      let* write_to := static_write_to q in
      slice (st_read q) write_to (st_data q)
    else slice_from (st_read q) (st_data q).

  (** static_.rs 62-70. *)
  Definition static_writeable_slice (q : static T) : outcome (nat * nat) :=
    let capacity := N in
    let* write_to := static_write_to q in
    if static_is_data_contiguous q then
      let* s := slice write_to capacity (st_data q) in
      Ret (write_to, length s)
    else
      let* s := slice write_to (st_read q) (st_data q) in
      Ret (write_to, length s).

  (** [Queue for Static], static_.rs 77-132. *)
  Definition static_enqueue (item : T) (q : static T) : outcome (static T * option T) :=
    if st_amount q =? N then Ret (q, Some item)
    else
      let* write_to := static_write_to q in
      let* data := index_set write_to item (st_data q) in
      Ret (mk_static data (st_read q) (st_amount q + 1), None).

  Definition static_expose_slots (q : static T) : outcome (static T * option nat) :=
    if st_amount q =? N then Ret (q, None)
    else
      let* (_, n) := static_writeable_slice q in
      Ret (q, Some n).

  Definition static_write (ys : list T) (q : static T) : static T :=
    match static_writeable_slice q with
    | Ret (o, n) => mk_static (blit o (firstn n ys) (st_data q)) (st_read q) (st_amount q)
    | _ => q
    end.

  Definition static_consider_enqueued (amount : nat) (q : static T) : outcome (static T) :=
    Ret (mk_static (st_data q) (st_read q) (st_amount q + amount)).

  Definition static_dequeue (q : static T) : outcome (static T * option T) :=
    if st_amount q =? 0 then Ret (q, None)
    else
      let previous_read := st_read q in
      let* read := cmod (st_read q + 1) N in
      let* amount := csub (st_amount q) 1 in
      let* item := index previous_read (st_data q) in
      Ret (mk_static (st_data q) read amount, Some item).

  Definition static_expose_items (q : static T) : outcome (static T * option (list T)) :=
    if st_amount q =? 0 then Ret (q, None)
    else
      let* s := static_readable_slice q in
      Ret (q, Some s).

  Definition static_consider_dequeued (amount : nat) (q : static T) : outcome (static T) :=
    let* read := cmod (st_read q + amount) N in
    let* amount := csub (st_amount q) amount in
    Ret (mk_static (st_data q) read amount).

  Definition static_queue : queue (static T) T := {|
    q_len := @st_amount T;
    q_enqueue := static_enqueue;
    q_expose_slots := static_expose_slots;
    q_write := static_write;
    q_consider_enqueued := static_consider_enqueued;
    q_dequeue := static_dequeue;
    q_expose_items := static_expose_items;
    q_consider_dequeued := static_consider_dequeued
  |}.

  (** [Debug for Static], static_.rs 134-165. *)
  Definition static_debug_data (q : static T) : outcome (list T) :=
    if static_is_data_contiguous q then
      let* write_to := static_write_to q in
      slice (st_read q) write_to (st_data q)
    else
      let* s1 := slice_from (st_read q) (st_data q) in
      let* n := csub (st_amount q) (length s1) in
      let* s2 := slice 0 n (st_data q) in
      Ret (s1 ++ s2).

  Definition static_debug (q : static T) : outcome (nat * list T) :=
    let* d := static_debug_data q in
    Ret (st_amount q, d).
End Static.

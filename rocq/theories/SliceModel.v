(** Model of [IntoSlice] (ufotofu/src/consumer/into_slice.rs).

    The module is currently not part of the build ([consumer.rs] 32-33 are commented out) and has not been ported to
    asynchronous methods. It is modelled as written, with the default [bulk_consume]. A mutable slice is the
    list of its items. [as_mut], [get_overwritten_so_far_mut] and [get_not_yet_overwritten_mut] are in
    ReachModel.v. *)
From Coq Require Import Bool List Arith.
From Verif Require Import Prelude Traits BasicModel.
Import ListNotations.
Set Implicit Arguments.

(** into_slice.rs 61-63. *)
Record into_slice (T : Type) : Type := mk_into_slice { is_slice : list T; is_offset : nat }.

Section IntoSlice.
  Context {T : Type}.

  (** [new], into_slice.rs 29-31. *)
  Definition into_slice_new (slice : list T) : into_slice T := mk_into_slice slice 0.

  (** [get_offset], into_slice.rs 34-36. *)
  Definition into_slice_get_offset (s : into_slice T) : nat := is_offset s.

  (** [get_overwritten_so_far], into_slice.rs 39-41. *)
  Definition into_slice_get_overwritten_so_far (s : into_slice T) : outcome (list T) :=
    slice_to (into_slice_get_offset s) (is_slice s).

  (** [get_not_yet_overwritten], into_slice.rs 44-46. *)
  Definition into_slice_get_not_yet_overwritten (s : into_slice T) : outcome (list T) :=
    slice_from (into_slice_get_offset s) (is_slice s).

  (** [as_ref], into_slice.rs 65-69, and [into_inner], 77-81. *)
  Definition into_slice_as_ref (s : into_slice T) : list T := is_slice s.
  Definition into_slice_into_inner (s : into_slice T) : list T := is_slice s.

  (** into_slice.rs 88-98. *)
  Definition into_slice_consume (item : T) (s : into_slice T) : outcome (into_slice T * res unit unit) :=
    if length (is_slice s) =? is_offset s then Ret (s, Err tt)
    else
      let* v := index_set (is_offset s) item (is_slice s) in
      Ret (mk_into_slice v (is_offset s + 1), Ok tt).

  (** into_slice.rs 100-102. *)
  Definition into_slice_close (fin : unit) (s : into_slice T) : outcome (into_slice T * res unit unit) := Ret (s, Ok tt).

  (** into_slice.rs 106-108. *)
  Definition into_slice_flush (s : into_slice T) : outcome (into_slice T * res unit unit) := Ret (s, Ok tt).

  (** into_slice.rs 112-119. *)
  Definition into_slice_expose (s : into_slice T) : outcome (into_slice T * res nat unit) :=
    if length (is_slice s) =? is_offset s then Ret (s, Err tt)
    else
      let* slots := slice_from (is_offset s) (is_slice s) in
      Ret (s, Ok (length slots)).

  (** The caller writing into the exposed slots. *)
  Definition into_slice_write (ys : list T) (s : into_slice T) : into_slice T :=
    mk_into_slice (blit (is_offset s) ys (is_slice s)) (is_offset s).

  (** into_slice.rs 121-125. *)
  Definition into_slice_consume_slots (amount : nat) (s : into_slice T) : outcome (into_slice T * res unit unit) :=
    Ret (mk_into_slice (is_slice s) (is_offset s + amount), Ok tt).

  Definition into_slice_consumer : bulk_consumer (into_slice T) T unit unit :=
    bulk_consumer_of into_slice_consume into_slice_close into_slice_flush into_slice_expose into_slice_write
      into_slice_consume_slots.
End IntoSlice.

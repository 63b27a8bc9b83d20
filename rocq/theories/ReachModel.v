(** Reaching inside adaptors: [as_ref] and [as_mut]. Paths are relative to ufotofu/src.

    A mutable reference to what is inside lets the caller call its methods, and even replace it. Here [.._as_mut i s] is the state of
    the adaptor afterwards, if the caller left [i] behind the reference. BufReaderToBulkProducer (producer/reader.rs 26-36)
    consists of nothing but its reader, so that there is nothing to say about it. *)
From Coq Require Import List Arith.
From Verif Require Import Prelude Traits BasicModel QueueModel AdaptorModel ScramblerModel SliceModel.
Import ListNotations.
Set Implicit Arguments.

(** [Invariant], producer/invariant.rs 70-80 and consumer/invariant.rs 66-76; the same in producer/invariant_noop.rs 52-62 and
    consumer/invariant_noop.rs 48-58. *)
Definition invariant_as_ref {S} (s : invariant S) : S := inv_inner s.
Definition invariant_as_mut {S} (i : S) (s : invariant S) : invariant S := mk_invariant i (inv_active s) (inv_exposed s).

(** [BulkScrambler], producer/bulk_scrambler.rs 143-153 and consumer/bulk_scrambler.rs 140-150. *)
Definition pscr_as_ref {S T F E} (s : pscr S T F E) : S := ps_inner s.
Definition pscr_as_mut {S T F E} (i : S) (s : pscr S T F E) : pscr S T F E :=
  mk_pscr i (ps_buffer s) (ps_last s) (ps_operations s) (ps_index s).
Definition cscr_as_ref {S T} (s : cscr S T) : S := cs_inner s.
Definition cscr_as_mut {S T} (i : S) (s : cscr S T) : cscr S T :=
  mk_cscr i (cs_buffer s) (cs_operations s) (cs_index s).

(** [BulkScrambler_], producer/bulk_scrambler.rs 44-45 and consumer/bulk_scrambler.rs 43-44, with common_macros.rs 19-47:
    [self.0.as_mut().as_mut()]. *)
Definition public_pscr_as_ref {S T F E} (s : invariant (pscr S T F E)) : S := pscr_as_ref (invariant_as_ref s).
Definition public_pscr_as_mut {S T F E} (i : S) (s : invariant (pscr S T F E)) : invariant (pscr S T F E) :=
  invariant_as_mut (pscr_as_mut i (invariant_as_ref s)) s.
Definition public_cscr_as_ref {S T} (s : invariant (cscr S T)) : S := cscr_as_ref (invariant_as_ref s).
Definition public_cscr_as_mut {S T} (i : S) (s : invariant (cscr S T)) : invariant (cscr S T) :=
  invariant_as_mut (cscr_as_mut i (invariant_as_ref s)) s.

(** The constructors, producer/bulk_scrambler.rs 65-75 and consumer/bulk_scrambler.rs 64-74: [BulkScrambler_(Invariant::new(..))]. *)
Definition public_pscr_new {S T F E} (x0 : T) (s : S) (ops : list pscr_op) (cap : nat) : invariant (pscr S T F E) :=
  invariant_new (pscr_new_with_capacity x0 s ops cap).
Definition public_cscr_new {S T} (x0 : T) (s : S) (ops : list cscr_op) (cap : nat) : invariant (cscr S T) :=
  invariant_new (cscr_new_with_capacity x0 s ops cap).

(** The mutable views of [IntoSlice]: the caller replaces the items of the region by [f] of them, which must be as many. *)
Section IntoSliceMut.
  Context {T : Type} (f : list T -> list T).

  (** consumer/into_slice.rs 49-52. *)
  Definition into_slice_get_overwritten_so_far_mut (s : into_slice T) : outcome (into_slice T) :=
    let offset := into_slice_get_offset s in
    let* r := slice_to offset (is_slice s) in
    let* rest := slice_from offset (is_slice s) in
    Ret (mk_into_slice (f r ++ rest) (is_offset s)).

  (** consumer/into_slice.rs 55-58. *)
  Definition into_slice_get_not_yet_overwritten_mut (s : into_slice T) : outcome (into_slice T) :=
    let offset := into_slice_get_offset s in
    let* front := slice_to offset (is_slice s) in
    let* r := slice_from offset (is_slice s) in
    Ret (mk_into_slice (front ++ f r) (is_offset s)).

  (** [as_mut], consumer/into_slice.rs 71-75. *)
  Definition into_slice_as_mut (s : into_slice T) : into_slice T := mk_into_slice (f (is_slice s)) (is_offset s).
End IntoSliceMut.

(** Model of the functions on error values: ufotofu/src/errors.rs and ufotofu_codec/src/decode_error.rs 69-166.

    A text is a [string]; [write!] into a formatter never fails. A [dyn Error] is the error itself: where the
    source may be one of two types, it is an element of the sum. [Display] of other types is a parameter. *)
From Coq Require Import Bool List Arith String Decimal DecimalString.
From Verif Require Import Prelude Traits CodecModel.
Set Implicit Arguments.
Local Open Scope string_scope.

(** [Display for usize]: decimal digits, without leading zeros. *)
Definition display_usize (n : nat) : string := NilEmpty.string_of_uint (Nat.to_uint n).

(** ** errors.rs *)

(** [Display for PipeError], errors.rs 17-34. *)
Definition pipe_error_display {PE CE} (err : pipe_error PE CE) : string :=
  match err with
  | PipeProducer _ => "Failed to pipe a producer into a consumer, because the producer emitted an error"
  | PipeConsumer _ => "Failed to pipe a producer into a consumer, because the consumer emitted an error"
  end.

(** [source] of [PipeError], errors.rs 42-47. *)
Definition pipe_error_source {PE CE} (err : pipe_error PE CE) : option (PE + CE) :=
  match err with
  | PipeProducer err => Some (inl err)
  | PipeConsumer err => Some (inr err)
  end.

(** [source], [Display] and [into_reason] of [ConsumeAtLeastError], errors.rs 66-68, 71-79, 83-85. *)
Definition cale_source {E} (err : consume_at_least_error E) : option E := Some (cale_reason err).
Definition cale_display {E} (err : consume_at_least_error E) : string :=
  "The consumer failed to consume sufficiently many items, it only consumed " ++ display_usize (cale_count err) ++ " items".
Definition cale_into_reason {E} (err : consume_at_least_error E) : E := cale_reason err.

(** [source], [Display] and [into_reason] of [ProduceAtLeastError], errors.rs 105-110, 113-124, 128-130. *)
Definition pale_source {F E} (err : produce_at_least_error F E) : option E :=
  match pale_reason err with
  | inl _ => None
  | inr err => Some err
  end.
Definition pale_display {F E} (err : produce_at_least_error F E) : string :=
  match pale_reason err with
  | inl _ => "The producer was unable to produce sufficiently many items due to emitting its final item, it stopped after producing "
      ++ display_usize (pale_count err) ++ " items"
  | inr _ => "The producer was unable to produce sufficiently many items due to an error, it stopped after producing "
      ++ display_usize (pale_count err) ++ " items"
  end.
Definition pale_into_reason {F E} (err : produce_at_least_error F E) : F + E := pale_reason err.

(** ** decode_error.rs *)

(** [source] of [DecodeError], decode_error.rs 96-102. *)
Definition decode_error_source {F E O} (err : decode_error F E O) : option (E + O) :=
  match err with
  | Producer err => Some (inl err)
  | UnexpectedEndOfInput _ => None
  | Other reason => Some (inr reason)
  end.

(** [Display for DecodeError], decode_error.rs 69-87. *)
Definition decode_error_display {F E O} (show_fin : F -> string) (show_err : E -> string) (show_reason : O -> string)
    (err : decode_error F E O) : string :=
  match err with
  | Producer err => "The underlying producer encountered an error: " ++ show_err err
  | UnexpectedEndOfInput fin => "The underlying producer emitted its final value: " ++ show_fin fin
  | Other reason => "Failed to decode: " ++ show_reason reason
  end.

(** [Display for Blame], decode_error.rs 152-163. Its [source] is the default, [None] (166). *)
Definition blame_display (b : blame) : string :=
  match b with
  | TheirFault => "Received an incorrect encoding."
  | OurFault => "Received an encoding we could not process."
  end.
Definition blame_source (b : blame) : option Empty_set := None.

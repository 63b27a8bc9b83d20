(** Model of the traits of ufotofu_codec (encode.rs, decode.rs, relative_encode.rs, relative_decode.rs),
    of decode_error.rs, and of the adaptors Encoder, Decoder and their canonic and relative variants.

    Simplifications: a method generic over the consumer (producer) is a function that takes any
    implementation of the consumer (producer) traits; futures run to completion; [pollster::block_on]
    of such a future is the identity, so the methods of the [...Sync] traits coincide with those they
    call. A value of the model's type [byte] is a [u8]. *)
From Coq Require Import Bool List Arith ZArith.
From Coq.Init Require Import Byte.
From Verif Require Import Prelude Traits BasicModel.
Import ListNotations.
Set Implicit Arguments.

(** ** decode_error.rs *)

(** decode_error.rs 22-26. *)
Inductive decode_error (F E O : Type) : Type :=
| UnexpectedEndOfInput (fin : F)
| Producer (err : E)
| Other (o : O).
Arguments UnexpectedEndOfInput {F E O} fin.
Arguments Producer {F E O} err.
Arguments Other {F E O} o.

(** decode_error.rs 30-39; [from] is the [From] implementation. *)
Definition map_other_from {F E A B} (from : A -> B) (err : decode_error F E A) : decode_error F E B :=
  match err with
  | Producer err => Producer err
  | UnexpectedEndOfInput fin => UnexpectedEndOfInput fin
  | Other noncanonic_err => Other (from noncanonic_err)
  end.

(** decode_error.rs 42-51. *)
Definition map_other {F E A B} (err : decode_error F E A) (fun_ : A -> B) : decode_error F E B :=
  match err with
  | Producer err => Producer err
  | UnexpectedEndOfInput fin => UnexpectedEndOfInput fin
  | Other noncanonic_err => Other (fun_ noncanonic_err)
  end.

(** [From<E>], decode_error.rs 54-58. *)
Definition decode_error_from {F E O} (err : E) : decode_error F E O := Producer err.

(** [From<ProduceAtLeastError>], decode_error.rs 60-67. *)
Definition decode_error_from_at_least {F E O} (err : produce_at_least_error F E) : decode_error F E O :=
  match pale_reason err with
  | inl fin => UnexpectedEndOfInput fin
  | inr err => Producer err
  end.

(** decode_error.rs 107-112. *)
Inductive blame : Type := TheirFault | OurFault.

Section Blame.
  Context {F E : Type}.

  (** The width of [usize] and [isize] in bits. *)
  Variable ptr : Z.

  (** [usize::try_from], [isize::try_from]: the number itself if it is in range. *)
  Definition usize_try_from (n : Z) : res Z unit :=
    if ((0 <=? n) && (n <? 2 ^ ptr))%Z then Ok n else Err tt.
  Definition isize_try_from (n : Z) : res Z unit :=
    if ((- 2 ^ (ptr - 1) <=? n) && (n <? 2 ^ (ptr - 1)))%Z then Ok n else Err tt.

  (** decode_error.rs 116-143. [usize::from(u16)] and [isize::from(i16)] are the identity. *)
  Definition u64_to_usize (n : Z) : res Z (decode_error F E blame) :=
    map_err (fun _ => Other OurFault) (usize_try_from n).
  Definition u32_to_usize (n : Z) : res Z (decode_error F E blame) :=
    map_err (fun _ => Other OurFault) (usize_try_from n).
  Definition u16_to_usize (n : Z) : res Z (decode_error F E blame) := Ok n.
  Definition i64_to_usize (n : Z) : res Z (decode_error F E blame) :=
    map_err (fun _ => Other OurFault) (isize_try_from n).
  Definition i32_to_usize (n : Z) : res Z (decode_error F E blame) :=
    map_err (fun _ => Other OurFault) (isize_try_from n).
  Definition i16_to_usize (n : Z) : res Z (decode_error F E blame) := Ok n.
End Blame.

(** ** The traits *)

(** [Encodable::encode], encode.rs 25-27, and [RelativeEncodable::relative_encode] for a fixed
    reference value, relative_encode.rs 20-26. *)
Definition encode_fn (V : Type) : Type :=
  forall S F E : Type, bulk_consumer S byte F E -> V -> S -> outcome (S * res unit E).

(** [Decodable::decode], [DecodableCanonic::decode_canonic], decode.rs 25-30, 58-63, and their relative
    variants for a fixed reference value, relative_decode.rs 16-22, 56-62. [O] is [ErrorReason] or
    [ErrorCanonic]. *)
Definition decode_fn (V O : Type) : Type :=
  forall S F E : Type, bulk_producer S byte F E -> S -> outcome (S * res V (decode_error F E O)).

(** encode.rs 31-40, and 68-70 for the synchronous variant. *)
Definition encode_into_vec {V} (encode : encode_fn V) (v : V) : outcome (list byte) :=
  let* (c, r) := encode _ _ _ (into_vec_consumer x00) v into_vec_new in
  match r with
  | Ok tt => Ret (into_vec_into_vec c)
  | Err _ => Panic
  end.

(** encode.rs 52-61, 74-79; [len_of_encoding] is the method of 48. *)
Definition encode_into_boxed_slice {V} (encode : encode_fn V) (len_of_encoding : V -> nat) (v : V)
  : outcome (list byte) :=
  let* (c, r) := encode _ _ _ (into_vec_consumer x00) v (into_vec_with_capacity (len_of_encoding v)) in
  match r with
  | Ok tt => Ret (into_vec_into_vec c)
  | Err _ => Panic
  end.

(** [decode_from_slice], [decode_canonic_from_slice], decode.rs 33-37, 66-70, and the synchronous
    variants 76-90. *)
Definition decode_from_slice {V O} (decode : decode_fn V O) (enc : list byte)
  : outcome (res V (decode_error unit infallible O)) :=
  let* (_, r) := decode _ _ _ from_slice_producer (from_slice_new enc) in Ret r.

(** The relative variants, relative_encode.rs 30-39, 65-74, 90-101 and relative_decode.rs 25-30, 65-70,
    99-116. *)
Definition relative_encode_into_vec {RT V} (relative_encode : RT -> encode_fn V) (v : V) (r : RT)
  : outcome (list byte) := encode_into_vec (relative_encode r) v.
Definition relative_encode_into_boxed_slice {RT V} (relative_encode : RT -> encode_fn V)
    (relative_len_of_encoding : V -> RT -> nat) (v : V) (r : RT) : outcome (list byte) :=
  encode_into_boxed_slice (relative_encode r) (fun v => relative_len_of_encoding v r) v.
Definition relative_decode_from_slice {RT V O} (relative_decode : RT -> decode_fn V O) (enc : list byte) (r : RT)
  : outcome (res V (decode_error unit infallible O)) := decode_from_slice (relative_decode r) enc.

(** The blanket implementations for the reference type [()], relative_encode.rs 42-56, 77-84 and
    relative_decode.rs 33-47, 73-92. *)
Definition unit_relative_encode {V} (encode : encode_fn V) (_r : unit) : encode_fn V := encode.
Definition unit_relative_len {V} (len_of_encoding : V -> nat) (v : V) (_r : unit) : nat := len_of_encoding v.
Definition unit_relative_decode {V O} (decode : decode_fn V O) (_r : unit) : decode_fn V O := decode.

(** ** Encoder and RelativeEncoder *)

Section Encoder.
  Context {S F E V : Type} (encode : encode_fn V) (C : bulk_consumer S byte F E).

  (** [Encoder], adaptors/encoder.rs 28-56; the state is that of the field [inner] (8-11); [new] and
      [into_inner] (13-26) are the identity. *)
  Definition encoder : buffered_consumer S V F E :=
    mk_buffered_consumer
      (mk_consumer (fun item s => encode C item s) (fun fin s => c_close C fin s))
      (fun s => c_flush C s).
End Encoder.

(** adaptors/relative_encoder.rs 8-12 and adaptors/relative_decoder.rs 12-16, 78-82. [Borrow] is the
    identity. *)
Record relative (S RT : Type) : Type := mk_relative { rel_inner : S; relative_to : RT }.

(** [set_relative_to], relative_encoder.rs 30-32, relative_decoder.rs 34-36, 102-104. *)
Definition set_relative_to {S RT} (r : RT) (s : relative S RT) : relative S RT := mk_relative (rel_inner s) r.

(** The result of a call on the field [inner]. *)
Definition on_inner {S RT X} (o : outcome (S * X)) (s : relative S RT) : outcome (relative S RT * X) :=
  let* (i, r) := o in Ret (mk_relative i (relative_to s), r).

Section RelativeEncoder.
  Context {S F E V RT : Type} (relative_encode : RT -> encode_fn V) (C : bulk_consumer S byte F E).

  (** [RelativeEncoder], adaptors/relative_encoder.rs 35-66. *)
  Definition relative_encoder : buffered_consumer (relative S RT) V F E :=
    mk_buffered_consumer
      (mk_consumer (fun item s => on_inner (relative_encode (relative_to s) C item (rel_inner s)) s)
                   (fun fin s => on_inner (c_close C fin (rel_inner s)) s))
      (fun s => on_inner (c_flush C (rel_inner s)) s).
End RelativeEncoder.

(** ** Decoder, CanonicDecoder and the relative variants *)

Section Decoder.
  Context {S F E V O : Type} (decode : decode_fn V O) (P : bulk_producer S byte F E).

  (** [produce], adaptors/decoder.rs 43-49, 96-102; also relative_decoder.rs 52-60, 121-129. *)
  Definition decoder_produce (s : S) : outcome (S * res (V + F) (decode_error F E O)) :=
    let* (s, r) := p_expose P s in
    match r with
    | Err e => Ret (s, Err (decode_error_from e))
    | Ok (inr fin) => Ret (s, Ok (inr fin))
    | Ok (inl _) =>
        let* (s, r) := decode P s in
        match r with
        | Err e => Ret (s, Err e)
        | Ok t => Ret (s, Ok (inl t))
        end
    end.

  (** [slurp], adaptors/decoder.rs 57-59, 110-112; also relative_decoder.rs 70-72, 140-142. *)
  Definition decoder_slurp (s : S) : outcome (S * res unit (decode_error F E O)) :=
    let* (s, r) := p_slurp P s in Ret (s, map_err decode_error_from r).

  (** [Decoder] and [CanonicDecoder]; the latter with [decode_canonic]. *)
  Definition decoder : buffered_producer S V F (decode_error F E O) :=
    mk_buffered_producer (mk_producer decoder_produce) decoder_slurp.
End Decoder.

Section RelativeDecoder.
  Context {S F E V O RT : Type} (relative_decode : RT -> decode_fn V O) (P : bulk_producer S byte F E).

  (** [RelativeDecoder], [RelativeCanonicDecoder], adaptors/relative_decoder.rs 39-73, 107-143. *)
  Definition relative_decoder : buffered_producer (relative S RT) V F (decode_error F E O) :=
    mk_buffered_producer
      (mk_producer (fun s => on_inner (decoder_produce (relative_decode (relative_to s)) P (rel_inner s)) s))
      (fun s => on_inner (decoder_slurp P (rel_inner s)) s).
End RelativeDecoder.

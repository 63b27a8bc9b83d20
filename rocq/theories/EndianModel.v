(** Model of ufotofu_codec_endian/src/lib.rs: the sixteen wrappers around fixed-width integers. *)
From Coq Require Import Bool List Arith ZArith Lia.
From Coq.Init Require Import Byte.
From Coq.Strings Require Byte.
From Verif Require Import Prelude Traits BasicModel CodecModel.
Import ListNotations.
Set Implicit Arguments.
Local Open Scope Z_scope.

(** ** Fixed-width integers, as documented in the Rust standard library *)

Inductive int : Type := u8 | u16 | u32 | u64 | i8 | i16 | i32 | i64.

(** [BITS] and the range of the type. *)
Definition BITS (i : int) : nat :=
  match i with
  | u8 | i8 => 8
  | u16 | i16 => 16
  | u32 | i32 => 32
  | u64 | i64 => 64
  end%nat.
Definition is_signed (i : int) : bool :=
  match i with i8 | i16 | i32 | i64 => true | _ => false end.
Definition MIN (i : int) : Z := if is_signed i then - 2 ^ (Z.of_nat (BITS i) - 1) else 0.
Definition MAX (i : int) : Z := if is_signed i then 2 ^ (Z.of_nat (BITS i) - 1) - 1 else 2 ^ Z.of_nat (BITS i) - 1.
Definition in_range (i : int) (z : Z) : bool := (MIN i <=? z) && (z <=? MAX i).

(** The values of an integer type. *)
Record num (i : int) : Type := mk_num { num_val : Z; num_ok : in_range i num_val = true }.

(** The value of the type that is congruent to [z]. *)
Definition wrap (i : int) (z : Z) : Z :=
  let m := 2 ^ Z.of_nat (BITS i) in
  let u := z mod m in
  if is_signed i && (m / 2 <=? u) then u - m else u.

Lemma wrap_ok : forall i z, in_range i (wrap i z) = true.
Proof.
  intros i z. unfold in_range, wrap.
  pose proof (Z.mod_pos_bound z (2 ^ Z.of_nat (BITS i)) ltac:(destruct i; reflexivity)) as H.
  set (u := z mod 2 ^ Z.of_nat (BITS i)) in *. clearbody u.
  apply andb_true_iff. split; apply Z.leb_le; destruct i; cbn in H |- *;
    try match goal with |- context [if ?a <=? u then _ else _] => destruct (Z.leb_spec a u) end; lia.
Qed.

Definition num_of (i : int) (z : Z) : num i := mk_num i (wrap i z) (wrap_ok i z).

(** A byte as a number, and the lowest byte of a number. *)
Definition byte_val (b : byte) : Z := Z.of_N (Byte.to_N b).
Definition low_byte (z : Z) : byte :=
  match Byte.of_N (Z.to_N (z mod 256)) with Some b => b | None => x00 end.

(** [to_le_bytes], [to_be_bytes]: the bytes of the two's complement representation. *)
Fixpoint le_bytes (n : nat) (z : Z) : list byte :=
  match n with
  | O => []
  | S n => low_byte z :: le_bytes n (z / 256)
  end.
Definition to_le_bytes (i : int) (v : num i) : list byte := le_bytes (BITS i / 8) (num_val v).
Definition to_be_bytes (i : int) (v : num i) : list byte := rev (le_bytes (BITS i / 8) (num_val v)).

(** [from_le_bytes], [from_be_bytes]. *)
Fixpoint le_val (bs : list byte) : Z :=
  match bs with
  | [] => 0
  | b :: bs => byte_val b + 256 * le_val bs
  end.
Definition from_le_bytes (i : int) (bs : list byte) : num i := num_of i (le_val bs).
Definition from_be_bytes (i : int) (bs : list byte) : num i := num_of i (le_val (rev bs)).

(** ** The wrappers *)

(** lib.rs 214-232. *)
Inductive wrapper : Type :=
| U8BE | U16BE | U32BE | U64BE | I8BE | I16BE | I32BE | I64BE
| U8LE | U16LE | U32LE | U64LE | I8LE | I16LE | I32LE | I64LE.

(** The macro parameter [$int]. *)
Definition wrapped (w : wrapper) : int :=
  match w with
  | U8BE | U8LE => u8
  | U16BE | U16LE => u16
  | U32BE | U32LE => u32
  | U64BE | U64LE => u64
  | I8BE | I8LE => i8
  | I16BE | I16LE => i16
  | I32BE | I32LE => i32
  | I64BE | I64LE => i64
  end.

(** The macro parameter [$to_bytes]: wrapper_be 202-206, wrapper_le 208-212; the macro for single bytes
    uses the big-endian functions (152, 181). *)
Definition to_bytes (w : wrapper) : num (wrapped w) -> list byte :=
  match w with
  | U16LE | U32LE | U64LE | I16LE | I32LE | I64LE => @to_le_bytes (wrapped w)
  | _ => @to_be_bytes (wrapped w)
  end.

(** The macro parameter [$from_bytes]. *)
Definition from_bytes (w : wrapper) : list byte -> num (wrapped w) :=
  match w with
  | U16LE | U32LE | U64LE | I16LE | I32LE | I64LE => from_le_bytes (wrapped w)
  | _ => from_be_bytes (wrapped w)
  end.

(** [encode], lib.rs 57-69 and 145-157. The loop of [bulk_consume_full_slice] makes at most as many
    rounds as there are bytes, for any consumer that accepts at least one of them per round. *)
Definition endian_encode (w : wrapper) : encode_fn (num (wrapped w)) :=
  fun S F E consumer v s =>
    let bytes := to_bytes w v in
    let* (s, r) := bulk_consume_full_slice (Datatypes.S (length bytes)) consumer bytes s in
    Ret (s, map_err (@cale_reason E) r).

(** [len_of_encoding], lib.rs 73-75 and 161-163. *)
Definition endian_len_of_encoding (w : wrapper) (v : num (wrapped w)) : nat := (BITS (wrapped w) / 8)%nat.

(** [decode], lib.rs 83-92 and 171-182. *)
Definition endian_decode (w : wrapper) : decode_fn (num (wrapped w)) infallible :=
  fun S F E producer s =>
    let bytes := repeat x00 (BITS (wrapped w) / 8) in
    let* (s, (bytes, r)) := bulk_overwrite_full_slice (Datatypes.S (length bytes)) producer bytes s in
    match r with
    | Err err => Ret (s, Err (decode_error_from_at_least err))
    | Ok tt => Ret (s, Ok (from_bytes w bytes))
    end.

(** [decode_canonic], lib.rs 98-105 and 188-195. *)
Definition endian_decode_canonic (w : wrapper) : decode_fn (num (wrapped w)) infallible :=
  fun S F E producer s => endian_decode w producer s.

(** What the endian wrappers are supposed to encode. *)
From Coq Require Import List Arith ZArith.
From Coq.Init Require Import Byte.
From Verif Require Import Prelude CodecSpec EndianModel.
Import ListNotations.
Set Implicit Arguments.

Inductive byte_order : Type := BigEndian | LittleEndian.

(** The byte order that the name of a wrapper announces. *)
Definition order (w : wrapper) : byte_order :=
  match w with
  | U8BE | U16BE | U32BE | U64BE | I8BE | I16BE | I32BE | I64BE => BigEndian
  | _ => LittleEndian
  end.

(** The [i]-th digit, counted from the least significant, of the two's complement representation of
    [z] in base 256. Division rounds down, so this covers negative numbers. *)
Definition digit (z : Z) (i : nat) : Z := ((z / 256 ^ Z.of_nat i) mod 256)%Z.

(** The number of bytes that the name of a wrapper announces. *)
Definition width (w : wrapper) : nat :=
  match w with
  | U8BE | I8BE | U8LE | I8LE => 1
  | U16BE | I16BE | U16LE | I16LE => 2
  | U32BE | I32BE | U32LE | I32LE => 4
  | U64BE | I64BE | U64LE | I64LE => 8
  end.

(** [encodes w v bs]: the bytes [bs] are the digits of [v], in the announced order. *)
Definition encodes (w : wrapper) (v : num (wrapped w)) (bs : list byte) : Prop :=
  let digits := map (digit (num_val v)) (seq 0 (width w)) in
  map byte_val bs = match order w with LittleEndian => digits | BigEndian => rev digits end.

(** Decoding takes exactly the announced number of bytes, if there are so many. *)
Definition endian_parse {O} (w : wrapper) (f : list byte -> num (wrapped w)) (xs : list byte)
  : parse (num (wrapped w)) O :=
  let n := BITS (wrapped w) / 8 in
  if n <=? length xs then Parsed (f (firstn n xs)) n else Truncated.

(** The test vectors that should be in the output directory. *)
From Coq Require Import Bool List Arith String.
From Coq.Init Require Import Byte.
From Verif Require Import Prelude Traits CodecModel CodecSpec VectorModel.
Import ListNotations.
Set Implicit Arguments.
Local Open Scope string_scope.

(** How decoding from a slice reports that a byte string is not an encoding. *)
Definition slice_error {V O} (p : parse V O) : option (decode_error unit infallible O) :=
  match p with
  | Parsed _ _ => None
  | Failed o _ => Some (Other o)
  | Truncated => Some (UnexpectedEndOfInput tt)
  end.

(** The contents of the directory [dir], for a list of directories and contents. *)
Fixpoint in_dir (dir : string) (files : list (string * list byte)) : option (list byte) :=
  match files with
  | [] => None
  | (d, contents) :: files => if d =? dir then Some contents else in_dir dir files
  end.

(** The test vector for some bytes: one file in each of these directories. *)
Definition vector_absolute {V O} (enc : V -> list byte) (dec : list byte -> parse V O) (dbg_value : V -> list byte)
    (dbg_error : decode_error unit infallible O -> list byte) (bytes : list byte) : list (string * list byte) :=
  match dec bytes, slice_error (dec bytes) with
  | Parsed v _, _ => [("yay", bytes); ("dbg", dbg_value v); ("reencoded", enc v)]
  | _, Some e => [("nay", bytes); ("nay_reason", dbg_error e)]
  | _, None => []
  end.
Definition vector_canonic {V O} (dec : list byte -> parse V O) (dbg_value : V -> list byte)
    (dbg_error : decode_error unit infallible O -> list byte) (bytes : list byte) : list (string * list byte) :=
  match dec bytes, slice_error (dec bytes) with
  | Parsed v _, _ => [("yay", bytes); ("dbg", dbg_value v)]
  | _, Some e => [("nay", bytes); ("nay_reason", dbg_error e)]
  | _, None => []
  end.
Definition vector_relative {V RT O} (enc : V -> list byte) (dec : RT -> list byte -> parse V O) (enc_r : RT -> list byte)
    (dbg_pair : V -> RT -> list byte) (dbg_reference : RT -> list byte)
    (dbg_error : decode_error unit infallible O -> list byte) (data : list byte * RT) : list (string * list byte) :=
  let '(bytes, r) := data in
  match dec r bytes, slice_error (dec r bytes) with
  | Parsed v _, _ => [("yay", bytes); ("yay_relative_to", enc_r r); ("dbg", dbg_pair v r); ("reencoded", enc v)]
  | _, Some e => [("nay", bytes); ("nay_relative_to", enc_r r); ("nay_dbg", dbg_reference r); ("nay_reason", dbg_error e)]
  | _, None => []
  end.

(** The output directory afterwards: the test vector of the [n]-th input has number [n]; nothing else has changed. *)
Definition holds_vectors {A} (vector : A -> list (string * list byte)) (inputs : list A) (before after : file_system) : Prop :=
  forall dir n, after dir n =
    match nth_error inputs n with
    | Some a => match in_dir dir (vector a) with Some contents => Some contents | None => before dir n end
    | None => before dir n
    end.

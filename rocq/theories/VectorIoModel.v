(** Model of ufotofu_codec/src/test_vector_generation.rs with a file system whose operations can fail, and which keeps what
    was written when the program panics. VectorModel.v has the same functions without failures. *)
From Coq Require Import Bool List Arith String.
From Coq.Init Require Import Byte.
From Verif Require Import Prelude Traits BasicModel CodecModel VectorModel.
Import ListNotations.
Set Implicit Arguments.
Local Open Scope string_scope.

(** The output directory: which directories exist in it, and the contents of the files; and how many file operations the
    program has done. *)
Record world : Type := mkworld {
  w_dirs : string -> bool;
  w_files : file_system;
  w_time : nat
}.

(** What happens to a file operation: it works, it fails without any effect, or it fails after having written [n] bytes. *)
Inductive fault : Type :=
| Works
| Fails
| FailsAfter (n : nat).

(** Code that does file operations: a panic leaves a world behind. *)
Definition io (A : Type) : Type := world -> outcome A * world.
Definition io_lift {A} (m : outcome A) : io A := fun w => (m, w).
Definition io_bind {A B} (m : io A) (k : A -> io B) : io B :=
  fun w => match m w with
           | (Ret a, w) => k a w
           | (Panic, w) => (Panic, w)
           | (NoFuel, w) => (NoFuel, w)
           end.
Notation "'do' p '<-' e ';' k" := (io_bind e (fun p => k))
  (at level 200, p pattern, e at level 200, k at level 200, right associativity).

(** [unwrap] of an [io::Result]. *)
Definition io_unwrap {A} (r : res A unit) : io A := match r with Ok a => io_lift (Ret a) | Err _ => io_lift Panic end.

Section FileOperations.
  (** What happens to the file operations, by the number of operations before. *)
  Context (faults : nat -> fault).

  (** [std::fs::create_dir_all]. *)
  Definition create_dir_all (dir : string) : io (res unit unit) :=
    fun w =>
      match faults (w_time w) with
      | Works => (Ret (Ok tt), mkworld (fun d => (d =? dir) || w_dirs w d) (w_files w) (w_time w + 1))
      | _ => (Ret (Err tt), mkworld (w_dirs w) (w_files w) (w_time w + 1))
      end.

  (** [std::fs::write]: opens and truncates the file, which needs its directory to exist, and writes. *)
  Definition fs_write (dir : string) (count : nat) (contents : list byte) : io (res unit unit) :=
    fun w =>
      if w_dirs w dir
      then match faults (w_time w) with
           | Works => (Ret (Ok tt), mkworld (w_dirs w) (write_file dir count contents (w_files w)) (w_time w + 1))
           | Fails => (Ret (Err tt), mkworld (w_dirs w) (w_files w) (w_time w + 1))
           | FailsAfter n =>
               (Ret (Err tt), mkworld (w_dirs w) (write_file dir count (firstn n contents) (w_files w)) (w_time w + 1))
           end
      else (Ret (Err tt), mkworld (w_dirs w) (w_files w) (w_time w + 1)).

  (** [write_file_create_parent_dirs], test_vector_generation.rs 504-513; the file is [dir/count]. *)
  Definition write_file_create_parent_dirs (dir : string) (count : nat) (contents : list byte) : io (res unit unit) :=
    do r <- create_dir_all dir;
    do _ <- io_unwrap r;
    fs_write dir count contents.

  (** The call with [unwrap], as everywhere in the file (72 and so on). *)
  Definition put (dir : string) (count : nat) (contents : list byte) : io unit :=
    do r <- write_file_create_parent_dirs dir count contents;
    io_unwrap r.

  (** The loops in 47-53, 129-135, 211-217, 297-309, 422-433. [corpus] is [None] if [read_dir] fails; an entry is [None] if
      listing or reading that file fails. Reading the corpus does not count as a file operation. *)
  Fixpoint generate_loop (single_test_vector : list byte -> nat -> io unit) (corpus : list (option (list byte))) (i : nat)
    : io unit :=
    match corpus with
    | [] => io_lift (Ret tt)
    | entry :: corpus =>
        do data <- io_lift (unwrap entry);
        do _ <- single_test_vector data i;
        generate_loop single_test_vector corpus (i + 1)
    end.
  Definition generate_io (single_test_vector : list byte -> nat -> io unit) (corpus : option (list (option (list byte)))) : io unit :=
    do entries <- io_lift (unwrap corpus);
    generate_loop single_test_vector entries 0.

  Section Absolute.
    Context {V O : Type} (encode : encode_fn V) (decode : decode_fn V O)
      (arbitrary_bytes : list byte -> option (list byte))
      (dbg_value : V -> list byte) (dbg_error : decode_error unit infallible O -> list byte).

    (** [single_test_vector_absolute], 57-94. *)
    Definition single_absolute_io (unstructured_bytes : list byte) (count : nat) : io unit :=
      do bytes <- io_lift (unwrap (arbitrary_bytes unstructured_bytes));
      do r <- io_lift (decode_from_slice decode bytes);
      match r with
      | Ok decoded =>
          do _ <- put "yay" count bytes;
          do _ <- put "dbg" count (dbg_value decoded);
          do reencoded <- io_lift (encode_into_vec encode decoded);
          put "reencoded" count reencoded
      | Err reason =>
          do _ <- put "nay" count bytes;
          put "nay_reason" count (dbg_error reason)
      end.

    (** [single_test_vector_canonic_absolute], 139-171; [decode] is [decode_canonic]. *)
    Definition single_canonic_absolute_io (unstructured_bytes : list byte) (count : nat) : io unit :=
      do bytes <- io_lift (unwrap (arbitrary_bytes unstructured_bytes));
      do r <- io_lift (decode_from_slice decode bytes);
      match r with
      | Ok decoded =>
          do _ <- put "yay" count bytes;
          put "dbg" count (dbg_value decoded)
      | Err reason =>
          do _ <- put "nay" count bytes;
          put "nay_reason" count (dbg_error reason)
      end.

    (** [generate_test_vectors_absolute], 40-54; [generate_test_vectors_canonic_absolute], 122-136. *)
    Definition generate_absolute_io (corpus : option (list (option (list byte)))) : io unit := generate_io single_absolute_io corpus.
    Definition generate_canonic_absolute_io (corpus : option (list (option (list byte)))) : io unit :=
      generate_io single_canonic_absolute_io corpus.
  End Absolute.

  Section Relative.
    Context {V RT O : Type} (encode : encode_fn V) (relative_decode : RT -> decode_fn V O)
      (arbitrary_pair : list byte -> option (list byte * RT)) (encode_r : RT -> outcome (list byte))
      (dbg_pair : V -> RT -> list byte) (dbg_reference : RT -> list byte)
      (dbg_error : decode_error unit infallible O -> list byte).

    (** [single_test_vector_relative], 221-279; [single_test_vector_relative_custom_serialisation], 313-372;
        [single_test_vector_canonic_relative], 437-495. *)
    Definition single_relative_io (unstructured_bytes : list byte) (count : nat) : io unit :=
      do (bytes, r) <- io_lift (unwrap (arbitrary_pair unstructured_bytes));
      do res <- io_lift (relative_decode_from_slice relative_decode bytes r);
      match res with
      | Ok decoded =>
          do _ <- put "yay" count bytes;
          do enc_r <- io_lift (encode_r r);
          do _ <- put "yay_relative_to" count enc_r;
          do _ <- put "dbg" count (dbg_pair decoded r);
          do reencoded <- io_lift (encode_into_vec encode decoded);
          put "reencoded" count reencoded
      | Err reason =>
          do _ <- put "nay" count bytes;
          do enc_r <- io_lift (encode_r r);
          do _ <- put "nay_relative_to" count enc_r;
          do _ <- put "nay_dbg" count (dbg_reference r);
          put "nay_reason" count (dbg_error reason)
      end.

    (** [generate_test_vectors_relative], 203-218; [..._custom_serialisation], 282-310;
        [generate_test_vectors_canonic_relative], 407-434. *)
    Definition generate_relative_io (corpus : option (list (option (list byte)))) : io unit := generate_io single_relative_io corpus.
  End Relative.
End FileOperations.

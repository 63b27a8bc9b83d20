(** Model of ufotofu_codec/src/test_vector_generation.rs: writing test vectors to the file system.

    Left out here, modelled in VectorIoModel.v: errors of the file system (every operation is unwrapped, so these are panics),
    and that the code creates directories. The corpus is the list of the contents of its files, in the order in which [read_dir] lists them; it
    is not in the output directory. *)
From Coq Require Import Bool List Arith String.
From Coq.Init Require Import Byte.
From Verif Require Import Prelude Traits BasicModel CodecModel.
Import ListNotations.
Set Implicit Arguments.
Local Open Scope string_scope.

(** The files in the output directory: the contents of the file [dir/count], for the name of a directory and a number;
    [to_string] gives different numbers different names. *)
Definition file_system : Type := string -> nat -> option (list byte).

(** [write_file_create_parent_dirs], test_vector_generation.rs 504-513, with the paths built in 70-71 and so on. *)
Definition write_file (dir : string) (count : nat) (contents : list byte) (fs : file_system) : file_system :=
  fun d n => if (d =? dir) && Nat.eqb n count then Some contents else fs d n.

(** [unwrap] of the result of [Arbitrary::arbitrary]. *)
Definition unwrap {A} (o : option A) : outcome A := match o with Some a => Ret a | None => Panic end.

(** The loops in 47-53, 129-135, 211-217, 297-309, 422-433; [i] is the initial value of the counter. *)
Fixpoint generate_test_vectors (single_test_vector : list byte -> nat -> file_system -> outcome file_system)
    (corpus : list (list byte)) (i : nat) (fs : file_system) : outcome file_system :=
  match corpus with
  | [] => Ret fs
  | data :: corpus =>
      let* fs := single_test_vector data i fs in
      generate_test_vectors single_test_vector corpus (i + 1) fs
  end.

Section Absolute.
  (** [arbitrary_bytes]: the implementation of [Arbitrary] for [Box<[u8]>], of the crate arbitrary; [dbg_value], [dbg_error]: the
      derived implementations of [Debug]. *)
  Context {V O : Type} (encode : encode_fn V) (decode : decode_fn V O)
    (arbitrary_bytes : list byte -> option (list byte))
    (dbg_value : V -> list byte) (dbg_error : decode_error unit infallible O -> list byte).

  (** [single_test_vector_absolute], 57-94. *)
  Definition single_test_vector_absolute (unstructured_bytes : list byte) (count : nat) (fs : file_system)
    : outcome file_system :=
    let* bytes := unwrap (arbitrary_bytes unstructured_bytes) in
    let* r := decode_from_slice decode bytes in
    match r with
    | Ok decoded =>
        let fs := write_file "yay" count bytes fs in
        let fs := write_file "dbg" count (dbg_value decoded) fs in
        let* reencoded := encode_into_vec encode decoded in
        Ret (write_file "reencoded" count reencoded fs)
    | Err reason =>
        let fs := write_file "nay" count bytes fs in
        Ret (write_file "nay_reason" count (dbg_error reason) fs)
    end.

  (** [single_test_vector_canonic_absolute], 139-171; [decode] is [decode_canonic]. *)
  Definition single_test_vector_canonic_absolute (unstructured_bytes : list byte) (count : nat) (fs : file_system)
    : outcome file_system :=
    let* bytes := unwrap (arbitrary_bytes unstructured_bytes) in
    let* r := decode_from_slice decode bytes in
    match r with
    | Ok decoded =>
        let fs := write_file "yay" count bytes fs in
        Ret (write_file "dbg" count (dbg_value decoded) fs)
    | Err reason =>
        let fs := write_file "nay" count bytes fs in
        Ret (write_file "nay_reason" count (dbg_error reason) fs)
    end.

  (** [generate_test_vectors_absolute], 40-54; [generate_test_vectors_canonic_absolute], 122-136. *)
  Definition generate_test_vectors_absolute (corpus : list (list byte)) (out_dir : file_system) : outcome file_system :=
    generate_test_vectors single_test_vector_absolute corpus 0 out_dir.
  Definition generate_test_vectors_canonic_absolute (corpus : list (list byte)) (out_dir : file_system)
    : outcome file_system :=
    generate_test_vectors single_test_vector_canonic_absolute corpus 0 out_dir.
End Absolute.

Section Relative.
  (** [arbitrary_pair]: the implementation of [Arbitrary] for [(Box<[u8]>, R)]. [encode_r]: [encode_into_vec] of the reference
      value, or the function passed to the variant with custom serialisation. The value itself is encoded
      with [Encodable], not relative to the reference value. *)
  Context {V RT O : Type} (encode : encode_fn V) (relative_decode : RT -> decode_fn V O)
    (arbitrary_pair : list byte -> option (list byte * RT)) (encode_r : RT -> outcome (list byte))
    (dbg_pair : V -> RT -> list byte) (dbg_reference : RT -> list byte)
    (dbg_error : decode_error unit infallible O -> list byte).

  (** [single_test_vector_relative], 221-279; [single_test_vector_relative_custom_serialisation], 313-372;
      [single_test_vector_canonic_relative], 437-495, where [relative_decode] is [relative_decode_canonic]. *)
  Definition single_test_vector_relative (unstructured_bytes : list byte) (count : nat) (fs : file_system)
    : outcome file_system :=
    let* (bytes, r) := unwrap (arbitrary_pair unstructured_bytes) in
    let* res := relative_decode_from_slice relative_decode bytes r in
    match res with
    | Ok decoded =>
        let fs := write_file "yay" count bytes fs in
        let* enc_r := encode_r r in
        let fs := write_file "yay_relative_to" count enc_r fs in
        let fs := write_file "dbg" count (dbg_pair decoded r) fs in
        let* reencoded := encode_into_vec encode decoded in
        Ret (write_file "reencoded" count reencoded fs)
    | Err reason =>
        let fs := write_file "nay" count bytes fs in
        let* enc_r := encode_r r in
        let fs := write_file "nay_relative_to" count enc_r fs in
        let fs := write_file "nay_dbg" count (dbg_reference r) fs in
        Ret (write_file "nay_reason" count (dbg_error reason) fs)
    end.

  (** [generate_test_vectors_relative], 203-218; [..._custom_serialisation], 282-310;
      [generate_test_vectors_canonic_relative], 407-434. *)
  Definition generate_test_vectors_relative (corpus : list (list byte)) (out_dir : file_system) : outcome file_system :=
    generate_test_vectors single_test_vector_relative corpus 0 out_dir.
End Relative.

(** The macros [fuzz_absolute_corpus], [fuzz_absolute_canonic_corpus], 26-37, 108-119, and [fuzz_relative_corpus],
    [fuzz_relative_canonic_corpus], 185-200, 386-404: fuzz targets that only decode. *)
Definition fuzz_absolute_corpus {V O} (decode : decode_fn V O) (data : list byte) : outcome unit :=
  let* _ := decode_from_slice decode data in Ret tt.
Definition fuzz_relative_corpus {V RT O} (relative_decode : RT -> decode_fn V O) (data : list byte * RT) : outcome unit :=
  let '(bytes, r) := data in
  let* _ := relative_decode_from_slice relative_decode bytes r in Ret tt.

(** Model of the macros in ufotofu_codec/src/proptest.rs: fuzz targets for codecs.

    A target gets arbitrary data. It returns if it finds nothing wrong, and panics otherwise. *)
From Coq Require Import Bool List Arith.
From Coq.Init Require Import Byte.
From Verif Require Import Prelude Traits BasicModel CodecModel ProptestModel.
Import ListNotations.
Set Implicit Arguments.

(** The data of a target, proptest.rs 37-60; the targets without canonic decoding (177-187, 244-254) have no
    [potential_encoding2]. The reference value of the relative targets (315, 397, 477, 550) is a separate argument. *)
Record codec_data (V : Type) : Type := mk_codec_data {
  data_t1 : V;
  data_t2 : V;
  data_c1 : test_consumer_state byte unit unit;
  data_c2 : test_consumer_state byte unit unit;
  data_potential_encoding1 : list byte;
  data_potential_encoding2 : list byte;
  data_exposed_items_sizes1 : list nat;
  data_exposed_items_sizes2 : list nat;
  data_yield_pattern1 : list bool;
  data_yield_pattern2 : list bool
}.

Section Absolute.
  Context {V O OC : Type} (encode : encode_fn V) (decode : decode_fn V O) (decode_canonic : decode_fn V OC)
    (len_of_encoding : V -> nat) (eqV : V -> V -> bool) (eqO : O -> O -> bool).

  (** The call in proptest.rs 63-74, 134-145, 201-212, 268-279. *)
  Definition data_basic_invariants (d : codec_data V) : outcome unit :=
    assert_basic_invariants encode decode eqV eqO (data_t1 d) (data_t2 d) (data_c1 d) (data_c2 d)
      (data_potential_encoding1 d) (data_exposed_items_sizes1 d) (data_exposed_items_sizes2 d)
      (data_yield_pattern1 d) (data_yield_pattern2 d).

  (** [fuzz_absolute_all], proptest.rs 25-82. *)
  Definition fuzz_absolute_all (d : codec_data V) : outcome unit :=
    let* _ := data_basic_invariants d in
    let* _ := assert_known_size_invariants encode len_of_encoding (data_t1 d) in
    assert_canonic_invariants encode decode decode_canonic eqV (data_potential_encoding1 d) (data_potential_encoding2 d).

  (** [fuzz_absolute_canonic], 96-151. *)
  Definition fuzz_absolute_canonic (d : codec_data V) : outcome unit :=
    let* _ := data_basic_invariants d in
    assert_canonic_invariants encode decode decode_canonic eqV (data_potential_encoding1 d) (data_potential_encoding2 d).

  (** [fuzz_absolute_known_size], 165-218. *)
  Definition fuzz_absolute_known_size (d : codec_data V) : outcome unit :=
    let* _ := data_basic_invariants d in
    assert_known_size_invariants encode len_of_encoding (data_t1 d).

  (** [fuzz_absolute_basic], 232-283. *)
  Definition fuzz_absolute_basic (d : codec_data V) : outcome unit := data_basic_invariants d.
End Absolute.

Section Relative.
  Context {V RT O OC : Type} (relative_encode : RT -> encode_fn V) (relative_decode : RT -> decode_fn V O)
    (relative_decode_canonic : RT -> decode_fn V OC) (relative_len_of_encoding : V -> RT -> nat)
    (eqV : V -> V -> bool) (eqO : O -> O -> bool) (predicate : V -> RT -> bool).

  (** The condition in proptest.rs 341, 423, 501, 574. *)
  Definition data_permitted (r : RT) (d : codec_data V) : bool := predicate (data_t1 d) r && predicate (data_t2 d) r.

  (** [fuzz_relative_all], proptest.rs 301-369. The assertions for relative codecs are those for absolute ones, with
      [r] passed along; see ProptestModel. *)
  Definition fuzz_relative_all (r : RT) (d : codec_data V) : outcome unit :=
    if data_permitted r d then
      let* _ := data_basic_invariants (relative_encode r) (relative_decode r) eqV eqO d in
      let* _ := assert_known_size_invariants (relative_encode r) (fun v => relative_len_of_encoding v r) (data_t1 d) in
      assert_canonic_invariants (relative_encode r) (relative_decode r) (relative_decode_canonic r) eqV
        (data_potential_encoding1 d) (data_potential_encoding2 d)
    else Ret tt.

  (** [fuzz_relative_canonic], 383-449. *)
  Definition fuzz_relative_canonic (r : RT) (d : codec_data V) : outcome unit :=
    if data_permitted r d then
      let* _ := data_basic_invariants (relative_encode r) (relative_decode r) eqV eqO d in
      assert_canonic_invariants (relative_encode r) (relative_decode r) (relative_decode_canonic r) eqV
        (data_potential_encoding1 d) (data_potential_encoding2 d)
    else Ret tt.

  (** [fuzz_relative_known_size], 463-522. *)
  Definition fuzz_relative_known_size (r : RT) (d : codec_data V) : outcome unit :=
    if data_permitted r d then
      let* _ := data_basic_invariants (relative_encode r) (relative_decode r) eqV eqO d in
      assert_known_size_invariants (relative_encode r) (fun v => relative_len_of_encoding v r) (data_t1 d)
    else Ret tt.

  (** [fuzz_relative_basic], 536-593. *)
  Definition fuzz_relative_basic (r : RT) (d : codec_data V) : outcome unit :=
    if data_permitted r d then data_basic_invariants (relative_encode r) (relative_decode r) eqV eqO d else Ret tt.
End Relative.

(** Model of ufotofu_codec/src/proptest/absolute.rs: assertions about codecs, for use in property tests.

    An assertion that holds returns; one that does not panics. The texts of the panics are left out.
    proptest/relative.rs repeats the same code with a reference value [r] that is passed to every call of
    [relative_encode] and [relative_decode]; its functions are those below, for [relative_encode r] and
    [relative_decode r]. *)
From Coq Require Import Bool List Arith.
From Coq.Init Require Import Byte.
From Coq.Strings Require Byte.
From Verif Require Import Prelude Traits BasicModel CodecModel.
Import ListNotations.
Set Implicit Arguments.

(** [==] for slices, and [starts_with]. *)
Fixpoint bytes_eqb (xs ys : list byte) : bool :=
  match xs, ys with
  | [], [] => true
  | x :: xs, y :: ys => Byte.eqb x y && bytes_eqb xs ys
  | _, _ => false
  end.
Fixpoint starts_with (xs ys : list byte) : bool :=
  match ys, xs with
  | [], _ => true
  | y :: ys, x :: xs => Byte.eqb x y && starts_with xs ys
  | _ :: _, [] => false
  end.

(** [assert!(b)]. *)
Definition assert (b : bool) : outcome unit := if b then Ret tt else Panic.

Section Assertions.
  Context {V O OC : Type} (encode : encode_fn V) (decode : decode_fn V O) (decode_canonic : decode_fn V OC)
    (len_of_encoding : V -> nat).

  (** [PartialEq] of the type and of its error reason. *)
  Context (eqV : V -> V -> bool) (eqO : O -> O -> bool).

  (** The derived [PartialEq] of [DecodeError<(), (), O>], decode_error.rs 21. *)
  Definition decode_error_eqb (e1 e2 : decode_error unit unit O) : bool :=
    match e1, e2 with
    | UnexpectedEndOfInput tt, UnexpectedEndOfInput tt => true
    | Producer tt, Producer tt => true
    | Other o1, Other o2 => eqO o1 o2
    | _, _ => false
    end.

  (** absolute.rs 11-44; the string [status] (23-38) is only used in the message. *)
  Definition assert_encoding_does_not_care_about_consumer_details (t : V)
      (c1 c2 : test_consumer_state byte unit unit) : outcome unit :=
    let* (c1, res1) := encode (test_consumer x00) t c1 in
    let* (c2, res2) := encode (test_consumer x00) t c2 in
    let* consumed1 := test_consumer_consumed c1 in
    let* consumed2 := test_consumer_consumed c2 in
    let common_len := Nat.min (length consumed1) (length consumed2) in
    let* l := slice_to common_len consumed1 in
    let* r := slice_to common_len consumed2 in
    assert (bytes_eqb l r).

  (** 46-57. *)
  Definition assert_distinct_values_produce_distinct_encodings (t1 t2 : V) : outcome unit :=
    if negb (eqV t1 t2) then
      let* enc1 := encode_into_vec encode t1 in
      let* enc2 := encode_into_vec encode t2 in
      if bytes_eqb enc1 enc2 then Panic else Ret tt
    else Ret tt.

  (** 59-72. *)
  Definition assert_encodings_are_prefix_free (t1 t2 : V) : outcome unit :=
    if negb (eqV t1 t2) then
      let* enc1 := encode_into_vec encode t1 in
      let* enc2 := encode_into_vec encode t2 in
      if starts_with enc2 enc1 then Panic
      else if starts_with enc1 enc2 then Panic
      else Ret tt
    else Ret tt.

  (** 76-115. The sizes are [NonZeroUsize]. *)
  Definition assert_decoding_does_not_care_about_consumer_details (potential_encoding : list byte)
      (exposed_items_sizes1 exposed_items_sizes2 : list nat) (yield_pattern1 yield_pattern2 : list bool) : outcome unit :=
    let p1 : test_producer_state byte unit unit :=
      test_producer_build potential_encoding (Ok tt) (Some exposed_items_sizes1) (Some yield_pattern1) in
    let p2 : test_producer_state byte unit unit :=
      test_producer_build potential_encoding (Ok tt) (Some exposed_items_sizes2) (Some yield_pattern2) in
    let* (p1, res1) := decode test_producer p1 in
    let* (p2, res2) := decode test_producer p2 in
    match res1, res2 with
    | Ok t1, Ok t2 => if negb (eqV t1 t2) then Panic else Ret tt
    | Err err1, Err err2 => if negb (decode_error_eqb err1 err2) then Panic else Ret tt
    | _, _ => Panic
    end.

  (** 117-137. *)
  Definition assert_decoding_reads_no_excessive_bytes (enc : list byte) : outcome unit :=
    let p := from_slice_new enc in
    let* (p, res) := decode from_slice_producer p in
    match res with
    | Err _ => Ret tt
    | Ok t =>
        let* minimal_enc := from_slice_produced_so_far p in
        if 1 <? length minimal_enc then
          let* len := csub (length minimal_enc) 1 in
          let* shorter := slice_to len minimal_enc in
          let p2 := from_slice_new shorter in
          let* (p2, res2) := decode from_slice_producer p2 in
          match res2 with
          | Err (UnexpectedEndOfInput tt) => Ret tt
          | _ => Panic
          end
        else Ret tt
    end.

  (** 139-155. *)
  Definition assert_encoding_then_decoding_yields_the_original (t : V) : outcome unit :=
    let* enc := encode_into_vec encode t in
    let* r := decode_from_slice decode enc in
    match r with
    | Ok t2 => if negb (eqV t t2) then Panic else Ret tt
    | Err err => Panic
    end.

  (** 159-186; [Clone] is the identity. *)
  Definition assert_basic_invariants (t1 t2 : V) (c1 c2 : test_consumer_state byte unit unit)
      (potential_encoding : list byte) (exposed_items_sizes1 exposed_items_sizes2 : list nat)
      (yield_pattern1 yield_pattern2 : list bool) : outcome unit :=
    let* _ := assert_encoding_does_not_care_about_consumer_details t1 c1 c2 in
    let* _ := assert_distinct_values_produce_distinct_encodings t1 t2 in
    let* _ := assert_encodings_are_prefix_free t1 t2 in
    let* _ := assert_decoding_does_not_care_about_consumer_details potential_encoding
      exposed_items_sizes1 exposed_items_sizes2 yield_pattern1 yield_pattern2 in
    let* _ := assert_decoding_reads_no_excessive_bytes potential_encoding in
    assert_encoding_then_decoding_yields_the_original t1.

  (** 188-199. *)
  Definition assert_len_of_encoding_is_accurate (t : V) : outcome unit :=
    let* enc := encode_into_vec encode t in
    let claimed_len := len_of_encoding t in
    if negb (length enc =? claimed_len) then Panic else Ret tt.

  (** 202-207. *)
  Definition assert_known_size_invariants (t1 : V) : outcome unit := assert_len_of_encoding_is_accurate t1.

  (** 209-226. Both decodings take place before the results are looked at. *)
  Definition assert_distinct_encodings_do_not_canonically_decode_to_equal_values
      (potential_encoding1 potential_encoding2 : list byte) : outcome unit :=
    let p1 := from_slice_new potential_encoding1 in
    let p2 := from_slice_new potential_encoding2 in
    let* (p1, r1) := decode_canonic from_slice_producer p1 in
    let* (p2, r2) := decode_canonic from_slice_producer p2 in
    match r1, r2 with
    | Ok t1, Ok t2 =>
        let* produced1 := from_slice_produced_so_far p1 in
        let* produced2 := from_slice_produced_so_far p2 in
        if negb (bytes_eqb produced1 produced2) && eqV t1 t2 then Panic else Ret tt
    | _, _ => Ret tt
    end.

  (** 228-240. *)
  Definition assert_canonic_decoding_roundtrips (potential_encoding : list byte) : outcome unit :=
    let p := from_slice_new potential_encoding in
    let* (p, r) := decode_canonic from_slice_producer p in
    match r with
    | Ok t =>
        let* reencoding := encode_into_vec encode t in
        let* produced := from_slice_produced_so_far p in
        if negb (bytes_eqb produced reencoding) then Panic else Ret tt
    | Err _ => Ret tt
    end.

  (** 242-261. *)
  Definition assert_canonic_decoding_specialises_regular_decoding (potential_encoding : list byte) : outcome unit :=
    let* r := decode_from_slice decode_canonic potential_encoding in
    match r with
    | Ok t_canonic =>
        let* res := decode_from_slice decode potential_encoding in
        match res with
        | Ok t_general => if negb (eqV t_canonic t_general) then Panic else Ret tt
        | Err err => Panic
        end
    | Err _ => Ret tt
    end.

  (** 264-276. *)
  Definition assert_canonic_invariants (potential_encoding1 potential_encoding2 : list byte) : outcome unit :=
    let* _ := assert_distinct_encodings_do_not_canonically_decode_to_equal_values potential_encoding1 potential_encoding2 in
    let* _ := assert_canonic_decoding_specialises_regular_decoding potential_encoding1 in
    assert_canonic_decoding_roundtrips potential_encoding1.
End Assertions.

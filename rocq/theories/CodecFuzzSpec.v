(** What the fuzz targets for codecs are supposed to check, on the level of byte strings. *)
From Coq Require Import Bool List Arith.
From Coq.Init Require Import Byte.
From Verif Require Import Prelude Traits Contracts CodecModel CodecSpec BasicModel CodecFuzzModel.
Import ListNotations.
Set Implicit Arguments.

(** [encode] writes [bytes] for the value [v] into every contract-abiding consumer, up to the first byte it refuses. *)
Definition encodes_as {V} (encode : encode_fn V) (v : V) (bytes : list byte) : Prop :=
  forall (S A F E : Type) (C : bulk_consumer S byte F E) (M : machine A byte F E)
    (R : S -> A -> nat -> list byte -> Prop) (D : S -> A -> Prop),
  lawful_consumer C M R D ->
  forall (s : S) (a : A) (k : nat) (w : list byte), R s a k w ->
  match m_feed M bytes a with
  | (a', _, None) => exists s', encode _ _ _ C v s = Ret (s', Ok tt) /\ R s' a' 0 []
  | (a', _, Some e) => exists s', encode _ _ _ C v s = Ret (s', Err e) /\ D s' a'
  end.

(** A codec that is lawful on the values that satisfy [ok], and need not encode any others. *)
Record lawful_codec_on {V O} (ok : V -> Prop) (encode : encode_fn V) (decode : decode_fn V O)
    (enc : V -> list byte) (dec : list byte -> parse V O) : Prop := {
  on_encode : forall v, ok v -> encodes_as encode v (enc v);
  on_decode : lawful_decode decode dec;
  on_reads : reads_no_further dec;
  on_round_trips : forall v, ok v -> dec (enc v) = Parsed v (length (enc v))
}.
Arguments on_encode {V O ok encode decode enc dec} _.
Arguments on_decode {V O ok encode decode enc dec} _.
Arguments on_reads {V O ok encode decode enc dec} _.
Arguments on_round_trips {V O ok encode decode enc dec} _.

(** Canonic decoding on top, which only yields values that satisfy [ok]. *)
Record lawful_canonic_on {V O OC} (ok : V -> Prop) (decode_canonic : decode_fn V OC) (enc : V -> list byte)
    (dec : list byte -> parse V O) (decc : list byte -> parse V OC) : Prop := {
  on_canonic_decode : lawful_decode decode_canonic decc;
  on_canonic_reads : reads_no_further decc;
  on_canonic_agrees : canonic enc dec decc;
  on_canonic_ok : forall xs v n, decc xs = Parsed v n -> ok v
}.
Arguments on_canonic_decode {V O OC ok decode_canonic enc dec decc} _.
Arguments on_canonic_reads {V O OC ok decode_canonic enc dec decc} _.
Arguments on_canonic_agrees {V O OC ok decode_canonic enc dec decc} _.
Arguments on_canonic_ok {V O OC ok decode_canonic enc dec decc} _.

(** The test consumers that a fuzzer generates. *)
Definition generated_consumer (c : test_consumer_state byte unit unit) : Prop :=
  exists n sizes pattern, c = test_consumer_build tt n sizes pattern /\
    match sizes with Some l => Forall (fun n => 1 <= n) l | None => True end.

(** The data that a fuzzer generates; slot sizes are [NonZeroUsize]. *)
Definition generated_data {V} (d : codec_data V) : Prop :=
  generated_consumer (data_c1 d) /\ generated_consumer (data_c2 d) /\
  Forall (fun n => 1 <= n) (data_exposed_items_sizes1 d) /\ Forall (fun n => 1 <= n) (data_exposed_items_sizes2 d).

(** What is checked about two values with encodings [e1] and [e2], and some bytes: the encoding of neither value is a prefix
    of that of the other, if they differ; without their last byte, the bytes of a (nontrivial) encoding
    are not an encoding; and the encoding of the first value decodes to it. *)
Definition basic_verdict {V O} (dec : list byte -> parse V O) (t1 : V) (e1 : list byte) (t2 : V) (e2 : list byte)
    (xs : list byte) : Prop :=
  (t1 <> t2 -> forall ys, e2 <> e1 ++ ys /\ e1 <> e2 ++ ys) /\
  (forall v n, dec xs = Parsed v n -> 1 < length (firstn n xs) -> dec (removelast (firstn n xs)) = Truncated) /\
  (exists n, dec e1 = Parsed t1 n).

(** What is checked about canonic decoding of two byte strings: what it yields from the first one is also what
    decoding yields, it is encoded as the bytes that were read, and the second byte string
    does not yield it from other bytes. *)
Definition canonic_verdict {V O OC} (enc : V -> list byte) (dec : list byte -> parse V O) (decc : list byte -> parse V OC)
    (xs ys : list byte) : Prop :=
  forall v n, decc xs = Parsed v n ->
    (exists m, dec xs = Parsed v m) /\ enc v = firstn n xs /\
    (forall m, decc ys = Parsed v m -> firstn m ys = firstn n xs).

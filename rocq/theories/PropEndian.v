(** Properties C42-C46: the endian wrappers. [encodes w v bs] says which bytes the wrapper [w] is
    supposed to turn the value [v] into. *)
From Coq Require Import Bool List Arith ZArith Lia.
From Coq.Init Require Import Byte.
From Verif Require Import Prelude ListFacts Traits Contracts ContractFacts BasicModel BasicSpec BasicProofs
  CodecModel CodecSpec CodecProofs EndianModel EndianSpec EndianProofs.
Import ListNotations.

(** *** C42 *)

Theorem C42_round_trip :
  forall (w : wrapper) (v : num (wrapped w)) (bs : list byte), encodes w v bs ->
  (forall S A F E (C : bulk_consumer S byte F E) (M : machine A byte F E) R D s a k wr a' n,
     lawful_consumer C M R D -> R s a k wr -> m_feed M bs a = (a', n, None) ->
     exists s', endian_encode w C v s = Ret (s', Ok tt) /\ R s' a' 0 []) /\
  (forall S F E (P : bulk_producer S byte F E) R D s ys l k,
     lawful_producer P R D -> R s (bs ++ ys) l k ->
     exists s', endian_decode w P s = Ret (s', Ok v) /\ R s' ys l 0).
Proof.
  intros w v bs Hbs. apply encodes_iff in Hbs as ->. split.
  - intros S A F E C M R D s a k wr a' n LC HR HF.
    pose proof (endian_lawful_encode w _ _ _ _ _ _ _ _ LC v _ _ _ _ HR) as H. rewrite HF in H. exact H.
  - intros S F E P R D s ys l k LP HR.
    pose proof (endian_lawful_decode w _ _ _ _ _ _ LP _ _ _ _ HR) as H.
    rewrite (dec_enc_app (codec_reads (endian_codec w)) (codec_round_trips (endian_codec w))) in H.
    rewrite skipn_enc in H. exact H.
Qed.
Print Assumptions C42_round_trip.

(** There is such an encoding for every value. *)
Theorem C42_encoding_exists : forall (w : wrapper) (v : num (wrapped w)), exists bs, encodes w v bs.
Proof. intros w v. exists (to_bytes w v). apply to_bytes_encodes. Qed.
Print Assumptions C42_encoding_exists.

(** Encode into a [Vec], decode from a slice with more bytes. *)
Theorem C42_vec_round_trip :
  forall (w : wrapper) (v : num (wrapped w)) (ys : list byte),
  exists bs, encode_into_vec (endian_encode w) v = Ret bs /\
    decode_from_slice (endian_decode w) (bs ++ ys) = Ret (Ok v).
Proof.
  intros w v ys. exists (to_bytes w v). split.
  - apply encode_into_vec_ok, endian_lawful_encode.
  - rewrite (decode_from_slice_ok (endian_lawful_decode w)).
    rewrite (dec_enc_app (codec_reads (endian_codec w)) (codec_round_trips (endian_codec w))). reflexivity.
Qed.
Print Assumptions C42_vec_round_trip.

(** -2 as a big-endian [i32], through slots of sizes 1 and 2, then decoded from a producer that exposes 3 items
    at a time and yields. *)
Example C42_example :
  (exists s, endian_encode I32BE (test_consumer x00) (num_of i32 (-2))
     (@test_consumer_build byte unit unit tt 9 (Some [1; 2]) (Some [true; false])) = Ret (s, Ok tt) /\
     test_consumer_consumed s = Ret [xff; xff; xff; xfe]) /\
  (exists s v, endian_decode I32BE test_producer
     (@test_producer_build byte nat unit [xff; xff; xff; xfe; x07] (Ok 5) (Some [3]) (Some [false; true])) =
       Ret (s, Ok v) /\ num_val v = (-2)%Z /\
     test_producer_remaining s = Ret [x07]).
Proof.
  split.
  - eexists. split; vm_compute; reflexivity.
  - do 2 eexists. split; [vm_compute; reflexivity|]. split; vm_compute; reflexivity.
Qed.

(** *** C43 *)

Theorem C43_injective_prefix_free :
  forall (w : wrapper) (v1 v2 : num (wrapped w)) bs ys, encodes w v1 bs -> encodes w v2 (bs ++ ys) ->
  v1 = v2 /\ ys = [].
Proof.
  intros w v1 v2 bs ys H1 H2. apply encodes_iff in H1 as ->. apply encodes_iff in H2.
  destruct (codec_prefix_free (codec_reads (endian_codec w)) (codec_round_trips (endian_codec w)) v1 v2 ys) as [-> ->]; auto.
Qed.
Print Assumptions C43_injective_prefix_free.

(** What is written: exactly one encoding, of the announced length and layout. *)
Theorem C43_layout :
  forall (w : wrapper) (v : num (wrapped w)) (bs : list byte),
  encode_into_vec (endian_encode w) v = Ret bs <-> encodes w v bs.
Proof.
  intros w v bs. rewrite encodes_iff, (encode_into_vec_ok (endian_lawful_encode w)). split; [congruence|intros ->; reflexivity].
Qed.
Print Assumptions C43_layout.

Theorem C43_length :
  forall (w : wrapper) (v : num (wrapped w)) (bs : list byte), encodes w v bs ->
  length bs = width w /\ endian_len_of_encoding w v = width w.
Proof.
  intros w v bs H. apply encodes_iff in H as ->. rewrite length_to_bytes. unfold endian_len_of_encoding.
  rewrite width_bits. auto.
Qed.
Print Assumptions C43_length.

(** 258 in both byte orders, and a negative number. *)
Example C43_example :
  encodes U16BE (num_of u16 258) [x01; x02] /\ encodes U16LE (num_of u16 258) [x02; x01] /\
  encodes I64LE (num_of i64 (-256)) [x00; xff; xff; xff; xff; xff; xff; xff] /\
  ~ encodes U16BE (num_of u16 258) [x02; x01].
Proof. repeat split; try (vm_compute; reflexivity). vm_compute. discriminate. Qed.

(** *** C44 *)

Theorem C44_reencodes :
  forall (w : wrapper) (bs : list byte), length bs = width w ->
  exists v, encodes w v bs /\
    decode_from_slice (endian_decode w) bs = Ret (Ok v) /\
    decode_from_slice (endian_decode_canonic w) bs = Ret (Ok v) /\
    encode_into_vec (endian_encode w) v = Ret bs.
Proof.
  intros w bs Hl. exists (from_bytes w bs). rewrite <- width_bits in Hl.
  assert (Hd : decode_from_slice (endian_decode w) bs = Ret (Ok (from_bytes w bs))).
  { rewrite (decode_from_slice_ok (endian_lawful_decode w)). unfold endian_parse. rewrite Hl, Nat.leb_refl, <- Hl, firstn_all.
    reflexivity. }
  split; [apply encodes_iff; symmetry; apply to_from_bytes, Hl|]. split; [exact Hd|]. split; [exact Hd|].
  rewrite (encode_into_vec_ok (endian_lawful_encode w)). now rewrite to_from_bytes.
Qed.
Print Assumptions C44_reencodes.

(** For every producer: what is decoded canonically determines the bytes that were read, and plain decoding
    gives the same. *)
Theorem C44_canonic :
  forall (w : wrapper) S F E (P : bulk_producer S byte F E) R D s xs l k s' v,
  lawful_producer P R D -> R s xs l k ->
  endian_decode_canonic w P s = Ret (s', Ok v) ->
  endian_decode w P s = Ret (s', Ok v) /\ encodes w v (firstn (width w) xs).
Proof.
  intros w S F E P R D s xs l k s' v LP HR HD. split; [exact HD|].
  pose proof (canonic_decode (endian_canonic w) _ _ _ _ _ _ LP _ _ _ _ HR) as H.
  destruct (endian_parse w (from_bytes w) xs) as [v' n|o n|] eqn:Ep; destruct H as (s1 & E1 & _); rewrite HD in E1; try discriminate.
  injection E1 as _ <-. apply (canonic_agrees (endian_canonic w)) in Ep as Hc. destruct Hc as [_ Hc].
  apply encodes_iff. unfold endian_parse in Ep. destruct (_ <=? _); [|discriminate]. injection Ep as Ev En.
  rewrite Hc, <- En, width_bits. reflexivity.
Qed.
Print Assumptions C44_canonic.

Theorem C44_injective :
  forall (w : wrapper) (xs ys : list byte) v, length xs = width w -> length ys = width w ->
  decode_from_slice (endian_decode_canonic w) xs = Ret (Ok v) ->
  decode_from_slice (endian_decode_canonic w) ys = Ret (Ok v) -> xs = ys.
Proof.
  intros w xs ys v Hx Hy H1 H2. destruct (C44_reencodes w xs Hx) as (v1 & E1 & _ & D1 & _).
  destruct (C44_reencodes w ys Hy) as (v2 & E2 & _ & D2 & _). rewrite H1 in D1. rewrite H2 in D2.
  injection D1 as <-. injection D2 as <-. apply encodes_iff in E1, E2. congruence.
Qed.
Print Assumptions C44_injective.

Example C44_example :
  exists v, decode_from_slice (endian_decode_canonic I16LE) [x00; x80] = Ret (Ok v) /\ num_val v = (-32768)%Z /\
    encode_into_vec (endian_encode I16LE) v = Ret [x00; x80].
Proof. eexists. split; [vm_compute; reflexivity|]. split; vm_compute; reflexivity. Qed.

(** *** C45 *)

Theorem C45_decode_outcome :
  forall (w : wrapper) S F E (P : bulk_producer S byte F E) R D s xs l k,
  lawful_producer P R D -> R s xs l k ->
  if width w <=? length xs then
    forall v, encodes w v (firstn (width w) xs) ->
    exists s', endian_decode w P s = Ret (s', Ok v) /\ R s' (skipn (width w) xs) l 0
  else
    exists s', endian_decode w P s =
      Ret (s', Err (match l with Ok f => UnexpectedEndOfInput f | Err e => Producer e end)) /\ D s'.
Proof.
  intros w S F E P R D s xs l k LP HR. pose proof (endian_lawful_decode w _ _ _ _ _ _ LP _ _ _ _ HR) as H.
  unfold endian_parse in H. rewrite width_bits in H. destruct (_ <=? _); [|exact H].
  intros v Hv. apply encodes_iff in Hv. rewrite Hv, from_to_bytes in H. exact H.
Qed.
Print Assumptions C45_decode_outcome.

(** In particular: it fails iff there are too few bytes, and the result (not the state) is a function of the bytes
    and the last value only. *)
Theorem C45_fails_iff :
  forall (w : wrapper) S F E (P : bulk_producer S byte F E) R D s xs l k,
  lawful_producer P R D -> R s xs l k ->
  ((exists s' e, endian_decode w P s = Ret (s', Err e)) <-> length xs < width w) /\
  (forall s' e, endian_decode w P s = Ret (s', Err e) ->
     match l with Ok f => e = UnexpectedEndOfInput f | Err x => e = Producer x end).
Proof.
  intros w S F E P R D s xs l k LP HR. pose proof (C45_decode_outcome w S F E P R D s xs l k LP HR) as H.
  destruct (Nat.leb_spec (width w) (length xs)) as [Hl|Hl].
  - destruct (C44_reencodes w (firstn (width w) xs)) as (v & Hv & _); [rewrite firstn_length; lia|].
    destruct (H v Hv) as (s1 & E1 & _). split; [split; [intros (s' & e & E2); rewrite E1 in E2; discriminate|lia]|].
    intros s' e E2. rewrite E1 in E2. discriminate.
  - destruct H as (s1 & E1 & _). split; [split; [auto|eauto]|].
    intros s' e E2. rewrite E1 in E2. injection E2 as _ <-. destruct l; reflexivity.
Qed.
Print Assumptions C45_fails_iff.

Theorem C45_chunking_irrelevant :
  forall (w : wrapper) S1 S2 F E (P1 : bulk_producer S1 byte F E) (P2 : bulk_producer S2 byte F E) R1 R2 D1 D2 s1 s2 xs l k1 k2,
  lawful_producer P1 R1 D1 -> lawful_producer P2 R2 D2 -> R1 s1 xs l k1 -> R2 s2 xs l k2 ->
  exists s1' s2' r, endian_decode w P1 s1 = Ret (s1', r) /\ endian_decode w P2 s2 = Ret (s2', r).
Proof.
  intros w S1 S2 F E P1 P2 R1 R2 D1 D2 s1 s2 xs l k1 k2 L1 L2 H1 H2.
  pose proof (C45_decode_outcome w _ _ _ P1 R1 D1 s1 xs l k1 L1 H1) as A1.
  pose proof (C45_decode_outcome w _ _ _ P2 R2 D2 s2 xs l k2 L2 H2) as A2.
  destruct (Nat.leb_spec (width w) (length xs)) as [Hl|Hl].
  - destruct (C44_reencodes w (firstn (width w) xs)) as (v & Hv & _); [rewrite firstn_length; lia|].
    destruct (A1 v Hv) as (s1' & E1 & _), (A2 v Hv) as (s2' & E2 & _). eauto.
  - destruct A1 as (s1' & E1 & _), A2 as (s2' & E2 & _). eauto.
Qed.
Print Assumptions C45_chunking_irrelevant.

Example C45_example :
  (exists s, endian_decode U32LE test_producer
     (@test_producer_build byte nat nat [x01; x02; x03] (Err 7) (Some [2]) None) = Ret (s, Err (Producer 7))) /\
  (exists s, endian_decode U32LE test_producer
     (@test_producer_build byte nat nat [x01; x02; x03] (Ok 7) (Some [2]) None) = Ret (s, Err (UnexpectedEndOfInput 7))).
Proof. split; eexists; vm_compute; reflexivity. Qed.

(** *** C46 *)

Theorem C46_encode_into_any :
  forall (w : wrapper) (v : num (wrapped w)) bs S A F E (C : bulk_consumer S byte F E) (M : machine A byte F E) R D s a k wr,
  encodes w v bs -> lawful_consumer C M R D -> R s a k wr ->
  match m_feed M bs a with
  | (a', _, None) => exists s', endian_encode w C v s = Ret (s', Ok tt) /\ R s' a' 0 []
  | (a', _, Some e) => exists s', endian_encode w C v s = Ret (s', Err e) /\ D s' a'
  end.
Proof.
  intros w v bs S A F E C M R D s a k wr Hbs LC HR. apply encodes_iff in Hbs as ->.
  exact (endian_lawful_encode w _ _ _ _ _ _ _ _ LC v _ _ _ _ HR).
Qed.
Print Assumptions C46_encode_into_any.

(** A consumer that fails after [n] bytes, with arbitrary slot sizes and yields. *)
Theorem C46_encode_into_failing :
  forall (w : wrapper) (v : num (wrapped w)) bs F E (error : E) n sizes pattern,
  encodes w v bs ->
  (match sizes with Some l => Forall (fun m => 1 <= m) l | None => True end) ->
  exists s' : test_consumer_state byte F E,
    endian_encode w (test_consumer x00) v (test_consumer_build error n sizes pattern) =
      Ret (s', if width w <=? n then Ok tt else Err error) /\
    test_consumer_consumed s' = Ret (firstn n bs).
Proof.
  intros w v bs F E error n sizes pattern Hbs Hs. apply encodes_iff in Hbs as ->.
  rewrite <- width_bits, <- (length_to_bytes w v).
  exact (encode_into_test_consumer (endian_lawful_encode w) F error n sizes pattern v Hs).
Qed.
Print Assumptions C46_encode_into_failing.

Example C46_example :
  exists s, endian_encode U64LE (test_consumer x00) (num_of u64 1)
     (@test_consumer_build byte unit nat 42 3 (Some [2; 1]) None) = Ret (s, Err 42) /\
     test_consumer_consumed s = Ret [x01; x00; x00].
Proof. eexists; split; vm_compute; reflexivity. Qed.

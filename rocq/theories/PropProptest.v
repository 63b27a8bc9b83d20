(** Properties C54 and C56: the assertions for property tests. [eqV], [eqO] are the implementations of [Eq] of
    the type and of its error reason. *)
From Coq Require Import Bool List Arith ZArith Lia.
From Coq.Init Require Import Byte.
From Coq.Strings Require Byte.
From Verif Require Import Prelude ListFacts Traits Contracts ContractFacts BasicModel BasicSpec BasicProofs CodecModel
  CodecSpec CodecProofs ProptestModel ProptestProofs EndianModel EndianSpec EndianProofs CodecExamples.
Import ListNotations.

(** *** C54. Whatever the arguments: the test consumers accept any number of bytes, and have any slot sizes and yield
    patterns; the bytes are arbitrary. *)

Theorem C54_basic_invariants :
  forall V O (encode : encode_fn V) (decode : decode_fn V O) enc dec eqV eqO,
  lawful_codec encode decode enc dec ->
  (forall v w, eqV v w = true <-> v = w) -> (forall o o', eqO o o' = true <-> o = o') ->
  forall t1 t2 n1 n2 sizes1 sizes2 pattern1 pattern2 xs psizes1 psizes2 ppattern1 ppattern2,
  (match sizes1 with Some l => Forall (fun n => 1 <= n) l | None => True end) ->
  (match sizes2 with Some l => Forall (fun n => 1 <= n) l | None => True end) ->
  Forall (fun n => 1 <= n) psizes1 -> Forall (fun n => 1 <= n) psizes2 ->
  assert_basic_invariants encode decode eqV eqO t1 t2
    (test_consumer_build tt n1 sizes1 pattern1) (test_consumer_build tt n2 sizes2 pattern2)
    xs psizes1 psizes2 ppattern1 ppattern2 = Ret tt.
Proof. intros V O encode decode enc dec eqV eqO L HV HO. intros. eapply assert_basic_ok; eauto. Qed.
Print Assumptions C54_basic_invariants.

Theorem C54_known_size_invariants :
  forall V (encode : encode_fn V) enc len, lawful_encode encode enc ->
  forall t, assert_known_size_invariants encode len t = Ret tt <-> len t = length (enc t).
Proof. intros V encode enc len L t. exact (assert_known_size_ok len L t). Qed.
Print Assumptions C54_known_size_invariants.

Theorem C54_canonic_invariants :
  forall V O OC (encode : encode_fn V) (decode : decode_fn V O) (decode_canonic : decode_fn V OC) enc dec decc eqV,
  lawful_codec encode decode enc dec -> lawful_canonic decode_canonic enc dec decc ->
  (forall v w, eqV v w = true <-> v = w) ->
  forall xs ys, assert_canonic_invariants encode decode decode_canonic eqV xs ys = Ret tt.
Proof. intros V O OC encode decode decode_canonic enc dec decc eqV L LC HV xs ys. eapply assert_canonic_ok; eauto. Qed.
Print Assumptions C54_canonic_invariants.

(** The sixteen wrappers pass. *)
Definition num_eqb (i : int) (v w : num i) : bool := (num_val v =? num_val w)%Z.
Lemma num_eqb_iff : forall i (v w : num i), num_eqb i v w = true <-> v = w.
Proof. intros i v w. unfold num_eqb. rewrite Z.eqb_eq. split; [apply num_eq|congruence]. Qed.

Theorem C54_endian :
  forall (w : wrapper) t1 t2 n1 n2 sizes1 sizes2 pattern1 pattern2 xs ys psizes1 psizes2 ppattern1 ppattern2 eqO,
  (match sizes1 with Some l => Forall (fun n => 1 <= n) l | None => True end) ->
  (match sizes2 with Some l => Forall (fun n => 1 <= n) l | None => True end) ->
  Forall (fun n => 1 <= n) psizes1 -> Forall (fun n => 1 <= n) psizes2 ->
  assert_basic_invariants (endian_encode w) (endian_decode w) (num_eqb (wrapped w)) eqO t1 t2
    (test_consumer_build tt n1 sizes1 pattern1) (test_consumer_build tt n2 sizes2 pattern2)
    xs psizes1 psizes2 ppattern1 ppattern2 = Ret tt /\
  assert_known_size_invariants (endian_encode w) (endian_len_of_encoding w) t1 = Ret tt /\
  assert_canonic_invariants (endian_encode w) (endian_decode w) (endian_decode_canonic w) (num_eqb (wrapped w)) xs ys = Ret tt.
Proof.
  intros w t1 t2 n1 n2 sizes1 sizes2 pattern1 pattern2 xs ys psizes1 psizes2 ppattern1 ppattern2 eqO H1 H2 H3 H4. splits.
  - eapply C54_basic_invariants; eauto; [apply endian_codec|apply num_eqb_iff|intros []].
  - eapply C54_known_size_invariants; [apply endian_lawful_encode|]. rewrite length_to_bytes. reflexivity.
  - eapply C54_canonic_invariants; [apply endian_codec|apply endian_canonic|apply num_eqb_iff].
Qed.
Print Assumptions C54_endian.

(** A codec with variable lengths and invalid byte strings passes; a wrong length is noticed. *)
Definition opt_eqb (v w : option byte) : bool :=
  match v, w with None, None => true | Some b, Some c => Byte.eqb b c | _, _ => false end.
Lemma opt_eqb_iff : forall v w, opt_eqb v w = true <-> v = w.
Proof.
  intros [b|] [c|]; cbn; split; intros H; try discriminate; auto.
  - f_equal. now apply Byte.byte_dec_bl.
  - injection H as ->. now apply Byte.byte_dec_lb.
Qed.

Example C54_example :
  assert_basic_invariants opt_encode opt_decode opt_eqb Byte.eqb (Some x01) None
    (test_consumer_build tt 1 (Some [1]) None) (test_consumer_build tt 9 None (Some [true]))
    [x01; x05; x06] [1] [2; 1] [true] [] = Ret tt /\
  assert_canonic_invariants opt_encode opt_decode opt_decode opt_eqb [x01; x05; x06] [x01; x05; x07] = Ret tt /\
  assert_known_size_invariants opt_encode (fun _ => 1) (Some x01) = Panic /\
  lawful_codec opt_encode opt_decode opt_enc opt_dec /\ lawful_canonic opt_decode opt_enc opt_dec opt_dec.
Proof. splits; try (vm_compute; reflexivity); [exact opt_codec|exact opt_canonic]. Qed.

(** *** C56. What passing the assertions for all arguments implies. *)

Theorem C56_assertions_detect :
  forall V O (encode : encode_fn V) (decode : decode_fn V O) enc dec eqV eqO,
  lawful_encode encode enc -> lawful_decode decode dec -> (forall v w, eqV v w = true <-> v = w) ->
  (forall t1 t2 c1 c2 xs psizes1 psizes2 ppattern1 ppattern2,
     c1 = test_consumer_build tt 0 None None -> c2 = c1 -> xs = [] -> psizes1 = [] -> psizes2 = [] ->
     assert_basic_invariants encode decode eqV eqO t1 t2 c1 c2 xs psizes1 psizes2 ppattern1 ppattern2 = Ret tt) ->
  enc_injective enc /\ (forall v w ys, enc w = enc v ++ ys -> v = w) /\ (forall v, exists n, dec (enc v) = Parsed v n).
Proof.
  intros V O encode decode enc dec eqV eqO LE LD HV H.
  assert (HA : forall t1 t2,
    assert_distinct_values_produce_distinct_encodings encode eqV t1 t2 = Ret tt /\
    assert_encodings_are_prefix_free encode eqV t1 t2 = Ret tt /\
    assert_encoding_then_decoding_yields_the_original encode decode eqV t1 = Ret tt).
  { intros t1 t2. specialize (H t1 t2 _ _ _ _ _ [] [] eq_refl eq_refl eq_refl eq_refl eq_refl). unfold assert_basic_invariants in H.
    repeat match type of H with bind ?x _ = _ => destruct x as [[]| |] eqn:?; cbn [bind] in H; try discriminate end. auto. }
  splits.
  - intros v w. apply (assert_distinct_ok eqV HV LE). apply HA.
  - intros v w ys Hw. destruct (HA v w) as (_ & HP & _). apply (assert_prefix_free_ok eqV HV LE) with (ys := ys) in HP; auto.
  - intros v. apply (assert_round_trip_ok eqV HV LE LD). apply (HA v v).
Qed.
Print Assumptions C56_assertions_detect.

(** What each assertion means, for any codec whatsoever: on these arguments, it passes if and only if *)
Theorem C56_basic_assertions_mean :
  forall V O (encode : encode_fn V) (decode : decode_fn V O) eqV eqO,
  (forall v w, eqV v w = true <-> v = w) -> (forall o o', eqO o o' = true <-> o = o') ->
  forall t1 t2 c1 c2 xs sizes1 sizes2 pattern1 pattern2,
  assert_basic_invariants encode decode eqV eqO t1 t2 c1 c2 xs sizes1 sizes2 pattern1 pattern2 = Ret tt <->
  (* of what the two consumers got, one is a prefix of the other, *)
  (exists c1' r1 c2' r2 got1 got2, encode _ _ _ (test_consumer x00) t1 c1 = Ret (c1', r1) /\ encode _ _ _ (test_consumer x00) t1 c2 = Ret (c2', r2) /\
     test_consumer_consumed c1' = Ret got1 /\ test_consumer_consumed c2' = Ret got2 /\ ((exists more, got1 ++ more = got2) \/ (exists more, got2 ++ more = got1))) /\
  (* the values are equal, or neither of their encodings is a prefix of the other, *)
  (t1 = t2 \/ exists enc1 enc2, encode_into_vec encode t1 = Ret enc1 /\ encode_into_vec encode t2 = Ret enc2 /\
     t1 <> t2 /\ forall more, enc1 ++ more <> enc2 /\ enc2 ++ more <> enc1) /\
  (* decoding yields the same from both producers, *)
  (exists p1 p2 r, decode _ _ _ test_producer (test_producer_build xs (Ok tt : res unit unit) (Some sizes1) (Some pattern1)) = Ret (p1, r) /\
     decode _ _ _ test_producer (test_producer_build xs (Ok tt : res unit unit) (Some sizes2) (Some pattern2)) = Ret (p2, r)) /\
  (* it fails on a slice, or reads at most one byte, or does not do without the last byte that it read, *)
  (exists p r, decode _ _ _ from_slice_producer (from_slice_new xs) = Ret (p, r) /\
     (is_ok r = true -> exists read, from_slice_produced_so_far p = Ret read /\
       (length read <= 1 \/ exists p', decode _ _ _ from_slice_producer (from_slice_new (removelast read)) = Ret (p', Err (UnexpectedEndOfInput tt))))) /\
  (* and the encoding of the first value is decoded to this value. *)
  (exists enc1, encode_into_vec encode t1 = Ret enc1 /\ decode_from_slice decode enc1 = Ret (Ok t1)).
Proof.
  intros V O encode decode eqV eqO HV HO t1 t2 c1 c2 xs sizes1 sizes2 pattern1 pattern2.
  rewrite assert_basic_parts, assert_consumer_mean, (assert_distinct_mean encode eqV HV), (assert_prefix_free_mean encode eqV HV),
    (assert_producer_mean decode eqV eqO HV HO), assert_excessive_mean, (assert_round_trip_mean encode decode eqV HV).
  split; [intros (H1 & _ & H3 & H4 & H5 & H6); splits; assumption|].
  intros (H1 & H3 & H4 & H5 & H6). splits; try assumption.
  destruct H3 as [H3|(enc1 & enc2 & E1 & E2 & Hn & H3)]; [now left|right]. exists enc1, enc2. splits; auto.
  intros ->. elim (proj1 (H3 [])). apply app_nil_r.
Qed.
Print Assumptions C56_basic_assertions_mean.

Theorem C56_other_assertions_mean :
  forall V O OC (encode : encode_fn V) (decode : decode_fn V O) (decode_canonic : decode_fn V OC) len eqV, (forall v w, eqV v w = true <-> v = w) ->
  (forall t, assert_known_size_invariants encode len t = Ret tt <-> exists enc, encode_into_vec encode t = Ret enc /\ length enc = len t) /\
  forall xs ys, assert_canonic_invariants encode decode decode_canonic eqV xs ys = Ret tt <->
    (* values that are equal were decoded from equal bytes, *)
    (exists p1 r1 p2 r2, decode_canonic _ _ _ from_slice_producer (from_slice_new xs) = Ret (p1, r1) /\
       decode_canonic _ _ _ from_slice_producer (from_slice_new ys) = Ret (p2, r2) /\
       (is_ok r1 = true -> is_ok r2 = true -> exists read1 read2,
          from_slice_produced_so_far p1 = Ret read1 /\ from_slice_produced_so_far p2 = Ret read2 /\ (r1 = r2 -> read1 = read2))) /\
    (* regular decoding yields the same value, *)
    (exists r, decode_from_slice decode_canonic xs = Ret r /\ forall v, r = Ok v -> decode_from_slice decode xs = Ret (Ok v)) /\
    (* whose encoding is what was read. *)
    (exists p r, decode_canonic _ _ _ from_slice_producer (from_slice_new xs) = Ret (p, r) /\
       forall v, r = Ok v -> exists read, from_slice_produced_so_far p = Ret read /\ encode_into_vec encode v = Ret read).
Proof.
  intros V O OC encode decode decode_canonic len eqV HV. split; [apply assert_length_mean|]. intros xs ys.
  rewrite assert_canonic_parts, (assert_canonic_distinct_mean decode_canonic eqV HV), (assert_canonic_specialises_mean decode decode_canonic eqV HV),
    assert_canonic_roundtrip_mean. reflexivity.
Qed.
Print Assumptions C56_other_assertions_mean.

(** A decoder that looks at how many items are exposed at a time, and one that does not need the last byte. *)
Definition peeking_decode : decode_fn (option byte) byte :=
  fun S F E P s =>
    let* (s, r) := p_expose P s in
    match r with
    | Ok (inl [x]) => Ret (s, Err (Other x))
    | Ok (inl _) => Ret (s, Ok None)
    | Ok (inr f) => Ret (s, Err (UnexpectedEndOfInput f))
    | Err e => Ret (s, Err (Producer e))
    end.
Definition greedy_decode : decode_fn (option byte) byte :=
  fun S F E P s =>
    let* (s, r) := p_produce P s in
    let* (s, r) := p_produce P s in
    match r with Err e => Ret (s, Err (Producer e)) | Ok _ => Ret (s, Ok None) end.
Example C56_basic_assertions_case :
  assert_decoding_does_not_care_about_consumer_details peeking_decode opt_eqb Byte.eqb [x01; x02] [2] [2] [] [] = Ret tt /\
  assert_decoding_does_not_care_about_consumer_details peeking_decode opt_eqb Byte.eqb [x01; x02] [2] [1] [] [] = Panic /\
  assert_decoding_does_not_care_about_consumer_details peeking_decode opt_eqb Byte.eqb [x01] [2] [1] [] [] = Ret tt /\
  assert_decoding_reads_no_excessive_bytes greedy_decode [x01; x02] = Panic /\
  assert_decoding_reads_no_excessive_bytes opt_decode [x01; x02] = Ret tt /\
  assert_known_size_invariants opt_encode (fun _ => 1) (Some x05) = Panic.
Proof. splits; vm_compute; reflexivity. Qed.

(** The assertions about canonic decoding pass on two byte strings if and only if: what canonic decoding yields is also what
    regular decoding yields, it re-encodes to the bytes that were read, and the other byte string does not
    yield it from other bytes. *)
Theorem C56_canonic_assertions_mean :
  forall V O OC (encode : encode_fn V) (decode : decode_fn V O) (decode_canonic : decode_fn V OC) enc dec decc eqV,
  lawful_encode encode enc -> lawful_decode decode dec -> lawful_decode decode_canonic decc -> reads_no_further decc ->
  (forall v w, eqV v w = true <-> v = w) ->
  forall xs ys, assert_canonic_invariants encode decode decode_canonic eqV xs ys = Ret tt <->
    forall v n, decc xs = Parsed v n ->
      (exists m, dec xs = Parsed v m) /\ enc v = firstn n xs /\
      (forall n', decc ys = Parsed v n' -> firstn n' ys = firstn n xs).
Proof. intros V O OC encode decode decode_canonic enc dec decc eqV LE LD LC RC HV. exact (assert_canonic_iff eqV HV LE LD LC RC). Qed.
Print Assumptions C56_canonic_assertions_mean.

(** Canonic decoding that accepts what regular decoding rejects; canonic decoding that accepts two encodings of the same value. *)
Definition reject_decode : decode_fn (option byte) byte := fun S F E P s => Ret (s, Err (Other x00)).
Definition drop_decode : decode_fn (option byte) byte :=
  fun S F E P s => let* (s, r) := opt_decode P s in Ret (s, match r with Ok _ => Ok None | Err e => Err e end).
Example C56_canonic_example :
  assert_canonic_invariants opt_encode reject_decode opt_decode opt_eqb [x01; x05] [] = Panic /\
  assert_canonic_invariants opt_encode drop_decode drop_decode opt_eqb [x00] [x01; x05] = Panic /\
  assert_canonic_invariants opt_encode opt_decode drop_decode opt_eqb [x01; x05] [] = Panic.
Proof. splits; vm_compute; reflexivity. Qed.

(** They do not notice a decoder that leaves bytes of the encoding unread: here an encoding is followed by a byte that
    the decoder does not read. The basic assertions pass for all arguments, but two values in a row do not
    round-trip. (The assertions about canonic decoding would notice, for a type that has canonic decoding.) *)
Definition pad_encode : encode_fn byte :=
  fun S F E C v s => let* (s, r) := bulk_consume_full_slice 3 C [v; xff] s in Ret (s, map_err (@cale_reason E) r).
Definition pad_decode : decode_fn byte infallible :=
  fun S F E P s =>
    let* (s, r) := p_produce P s in
    match r with
    | Err e => Ret (s, Err (Producer e))
    | Ok (inr f) => Ret (s, Err (UnexpectedEndOfInput f))
    | Ok (inl b) => Ret (s, Ok b)
    end.

Lemma pad_lawful_encode : lawful_encode pad_encode (fun v => [v; xff]).
Proof.
  intros S A F E C M R D L v s a k wr HR. unfold pad_encode.
  pose proof (@PipeProofs.bulk_consume_full_slice_lawful _ _ _ _ _ C M R D L 3 [v; xff] s a k wr HR ltac:(cbn; lia)) as H.
  destruct (m_feed M [v; xff] a) as [[a' n] [e|]].
  - destruct H as (s' & m & E1 & HD & _). exists s'. rewrite E1. auto.
  - destruct H as (s' & E1 & HR'). exists s'. rewrite E1. auto.
Qed.
Definition pad_dec (xs : list byte) : parse byte infallible := match xs with [] => Truncated | x :: _ => Parsed x 1 end.
Lemma pad_lawful_decode : lawful_decode pad_decode pad_dec.
Proof.
  intros S F E P R D L s xs l k HR. unfold pad_decode. destruct xs as [|x xs].
  - cbn [pad_dec]. destruct (lp_produce_last (lp_core L) HR) as (s' & E1 & HD). exists s'. rewrite E1. destruct l; auto.
  - destruct (lp_produce (lp_core L) HR) as (s1 & E1 & HR1). apply (lp_forget (lp_core L)) in HR1. rewrite E1. exists s1. auto.
Qed.
Lemma pad_reads : reads_no_further pad_dec.
Proof. split; intros [|x xs] v n H; try discriminate. injection H as <- <-. cbn. split; auto. lia. Qed.
Lemma byte_eqb_iff : forall x y, Byte.eqb x y = true <-> x = y.
Proof. intros x y. split; [apply Byte.byte_dec_bl|apply Byte.byte_dec_lb]. Qed.

Theorem C56_unread_bytes_refuted :
  exists V O (encode : encode_fn V) (decode : decode_fn V O) enc dec eqV eqO,
  lawful_encode encode enc /\ lawful_decode decode dec /\
  (* the basic assertions pass for all arguments *)
  (forall t1 t2 n1 n2 sizes1 sizes2 pattern1 pattern2 xs psizes1 psizes2 ppattern1 ppattern2,
    (match sizes1 with Some l => Forall (fun n => 1 <= n) l | None => True end) ->
    (match sizes2 with Some l => Forall (fun n => 1 <= n) l | None => True end) ->
    Forall (fun n => 1 <= n) psizes1 -> Forall (fun n => 1 <= n) psizes2 ->
    assert_basic_invariants encode decode eqV eqO t1 t2
      (test_consumer_build tt n1 sizes1 pattern1) (test_consumer_build tt n2 sizes2 pattern2)
      xs psizes1 psizes2 ppattern1 ppattern2 = Ret tt) /\
  (* but decoding the encodings of two values does not give these values *)
  exists v1 v2 s1 s2, decode _ _ _ from_slice_producer (from_slice_new (enc v1 ++ enc v2)) = Ret (s1, Ok v1) /\
    exists v2', decode _ _ _ from_slice_producer s1 = Ret (s2, Ok v2') /\ v2' <> v2.
Proof.
  exists byte, infallible, pad_encode, pad_decode, (fun v => [v; xff]), pad_dec, Byte.eqb, (fun _ _ => true).
  split; [exact pad_lawful_encode|]. split; [exact pad_lawful_decode|]. split.
  - intros t1 t2 n1 n2 sizes1 sizes2 pattern1 pattern2 xs psizes1 psizes2 ppattern1 ppattern2 H1 H2 H3 H4.
    unfold assert_basic_invariants.
    rewrite (assert_consumer_ok pad_lawful_encode) by auto. cbn [bind].
    rewrite (proj2 (assert_distinct_ok Byte.eqb byte_eqb_iff pad_lawful_encode t1 t2)) by congruence. cbn [bind].
    rewrite (proj2 (assert_prefix_free_ok Byte.eqb byte_eqb_iff pad_lawful_encode t1 t2)) by (intros ys [H|H]; cbn in H; congruence).
    cbn [bind]. rewrite (assert_producer_ok Byte.eqb (fun _ _ => true) byte_eqb_iff (fun o : infallible => match o with end) pad_lawful_decode) by auto. cbn [bind].
    rewrite (assert_excessive_ok pad_lawful_decode pad_reads). cbn [bind].
    apply (assert_round_trip_ok Byte.eqb byte_eqb_iff pad_lawful_encode pad_lawful_decode). eexists. reflexivity.
  - exists x01, x02. do 2 eexists. split; [vm_compute; reflexivity|]. exists xff. split; [vm_compute; reflexivity|discriminate].
Qed.
Print Assumptions C56_unread_bytes_refuted.

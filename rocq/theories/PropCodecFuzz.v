(** Properties C67 and C68: the fuzz targets for codecs. [eqV], [eqO] are the implementations of [Eq] of the type and of
    its error reason. *)
From Coq Require Import Bool List Arith ZArith Lia.
From Coq.Init Require Import Byte.
From Coq.Strings Require Byte.
From Verif Require Import Prelude ListFacts Traits Contracts ContractFacts BasicModel BasicSpec BasicProofs CodecModel
  CodecSpec CodecProofs ProptestModel ProptestProofs EndianModel EndianSpec EndianProofs CodecExamples CodecFuzzModel
  CodecFuzzSpec CodecFuzzProofs PropProptest.
Import ListNotations.

(** *** C67. The targets for absolute codecs. *)

(** Exactly what each of them accepts. *)
Theorem C67_absolute_targets_mean :
  forall V O OC (encode : encode_fn V) (decode : decode_fn V O) (decode_canonic : decode_fn V OC) len enc dec decc eqV eqO,
  lawful_encode encode enc -> lawful_decode decode dec -> lawful_decode decode_canonic decc ->
  (forall v w, eqV v w = true <-> v = w) -> (forall o o', eqO o o' = true <-> o = o') ->
  forall d, generated_data d ->
  let basic := basic_verdict dec (data_t1 d) (enc (data_t1 d)) (data_t2 d) (enc (data_t2 d)) (data_potential_encoding1 d) in
  let known_size := len (data_t1 d) = length (enc (data_t1 d)) in
  let canonic := canonic_verdict enc dec decc (data_potential_encoding1 d) (data_potential_encoding2 d) in
  (fuzz_absolute_basic encode decode eqV eqO d = Ret tt <-> basic) /\
  (fuzz_absolute_known_size encode decode len eqV eqO d = Ret tt <-> basic /\ known_size) /\
  (fuzz_absolute_canonic encode decode decode_canonic eqV eqO d = Ret tt <-> basic /\ canonic) /\
  (fuzz_absolute_all encode decode decode_canonic len eqV eqO d = Ret tt <-> basic /\ known_size /\ canonic).
Proof.
  intros V O OC encode decode decode_canonic len enc dec decc eqV eqO LE LD LC HV HO d (G1 & G2 & S1 & S2).
  pose proof (proj1 (lawful_encodes_as encode enc) LE) as HE. cbv zeta.
  unfold fuzz_absolute_basic, fuzz_absolute_known_size, fuzz_absolute_canonic, fuzz_absolute_all. rewrite !seq_iff.
  rewrite (check_basic eqV eqO HV HO LD d (HE _) (HE _) G1 G2 S1 S2).
  rewrite (check_known_size len (HE (data_t1 d))).
  rewrite (check_canonic eqV HV LD LC enc (data_potential_encoding1 d) (data_potential_encoding2 d) (fun v n _ => HE v)).
  tauto.
Qed.
Print Assumptions C67_absolute_targets_mean.

(** Lawful codecs pass, whatever the data. *)
Theorem C67_absolute_targets_pass :
  forall V O OC (encode : encode_fn V) (decode : decode_fn V O) (decode_canonic : decode_fn V OC) len enc dec decc eqV eqO,
  lawful_codec encode decode enc dec -> lawful_canonic decode_canonic enc dec decc -> (forall v, len v = length (enc v)) ->
  (forall v w, eqV v w = true <-> v = w) -> (forall o o', eqO o o' = true <-> o = o') ->
  forall d, generated_data d ->
  fuzz_absolute_basic encode decode eqV eqO d = Ret tt /\
  fuzz_absolute_known_size encode decode len eqV eqO d = Ret tt /\
  fuzz_absolute_canonic encode decode decode_canonic eqV eqO d = Ret tt /\
  fuzz_absolute_all encode decode decode_canonic len eqV eqO d = Ret tt.
Proof.
  intros V O OC encode decode decode_canonic len enc dec decc eqV eqO L LC Hl HV HO d G.
  destruct (C67_absolute_targets_mean V O OC encode decode decode_canonic len enc dec decc eqV eqO
    (codec_encode L) (codec_decode L) (canonic_decode LC) HV HO d G) as (H1 & H2 & H3 & H4).
  pose proof (verdict_basic_on (lawful_codec_on_all L) (data_t1 d) (data_t2 d) (data_potential_encoding1 d) Logic.I Logic.I) as B.
  pose proof (verdict_canonic_on (canonic_agrees LC) (data_potential_encoding1 d) (data_potential_encoding2 d)) as CC.
  rewrite H1, H2, H3, H4. auto 10.
Qed.
Print Assumptions C67_absolute_targets_pass.

(** [fuzz_absolute_all] includes the others, whether or not the codec is lawful. *)
Theorem C67_all_includes_the_others :
  forall V O OC (encode : encode_fn V) (decode : decode_fn V O) (decode_canonic : decode_fn V OC) len eqV eqO d,
  fuzz_absolute_all encode decode decode_canonic len eqV eqO d = Ret tt <->
  fuzz_absolute_known_size encode decode len eqV eqO d = Ret tt /\
  fuzz_absolute_canonic encode decode decode_canonic eqV eqO d = Ret tt.
Proof.
  intros V O OC encode decode decode_canonic len eqV eqO d.
  unfold fuzz_absolute_all, fuzz_absolute_known_size, fuzz_absolute_canonic. rewrite !seq_iff. tauto.
Qed.
Print Assumptions C67_all_includes_the_others.

(** Passing for all data means: no encoding of a value is a prefix of that of another one; encodings decode to the value; all
    but the last byte of what was read is too short; lengths are right; and canonic decoding is canonic,
    except that regular decoding may read more bytes than canonic decoding. *)
Theorem C67_passing_means :
  forall V O OC (encode : encode_fn V) (decode : decode_fn V O) (decode_canonic : decode_fn V OC) len enc dec decc eqV eqO,
  lawful_encode encode enc -> lawful_decode decode dec -> lawful_decode decode_canonic decc ->
  (forall v w, eqV v w = true <-> v = w) -> (forall o o', eqO o o' = true <-> o = o') -> inhabited V ->
  (forall d, generated_data d -> fuzz_absolute_all encode decode decode_canonic len eqV eqO d = Ret tt) <->
  (forall v w ys, enc w = enc v ++ ys -> v = w) /\
  (forall v, exists n, dec (enc v) = Parsed v n) /\
  (forall xs v n, dec xs = Parsed v n -> 1 < length (firstn n xs) -> dec (removelast (firstn n xs)) = Truncated) /\
  (forall v, len v = length (enc v)) /\
  (forall xs v n, decc xs = Parsed v n -> (exists m, dec xs = Parsed v m) /\ enc v = firstn n xs).
Proof.
  intros V O OC encode decode decode_canonic len enc dec decc eqV eqO LE LD LC HV HO [v0].
  pose proof (C67_absolute_targets_mean V O OC encode decode decode_canonic len enc dec decc eqV eqO LE LD LC HV HO) as HM.
  set (c0 := test_consumer_build tt 0 None None : test_consumer_state byte unit unit).
  assert (G0 : generated_consumer c0) by (exists 0, None, None; split; [reflexivity|exact Logic.I]).
  split.
  - intros H.
    assert (HA : forall v w xs ys,
      basic_verdict dec v (enc v) w (enc w) xs /\ len v = length (enc v) /\ canonic_verdict enc dec decc xs ys).
    { intros v w xs ys. set (d := mk_codec_data v w c0 c0 xs ys [] [] [] []).
      assert (G : generated_data d) by (unfold generated_data; cbn; auto).
      specialize (H d G). destruct (HM d G) as (_ & _ & _ & H4). apply H4 in H. exact H. }
    split; [|split; [|split; [|split]]].
    + intros v w ys He. destruct (HA v w [] []) as ((Hp & _) & _).
      destruct (eqV v w) eqn:Ev; [now apply HV|]. assert (Hn : v <> w) by (intros Hn; apply HV in Hn; congruence).
      destruct (Hp Hn ys) as [Hp1 _]. contradiction.
    + intros v. destruct (HA v v [] []) as ((_ & _ & Hr) & _). exact Hr.
    + intros xs. destruct (HA v0 v0 xs []) as ((_ & Hx & _) & _). exact Hx.
    + intros v. apply (HA v v [] []).
    + intros xs v n Hv. destruct (HA v0 v0 xs []) as (_ & _ & Hc). destruct (Hc v n Hv) as (H1 & H2 & _). auto.
  - intros (Hp & Hr & Hx & Hl & Hc) d G. destruct (HM d G) as (_ & _ & _ & H4). apply H4. split; [split; [|split]|split].
    + intros Hn ys. split; intros He; [apply Hn|apply Hn; symmetry]; eapply Hp; eauto.
    + apply Hx.
    + apply Hr.
    + apply Hl.
    + intros v n Hv. destruct (Hc _ _ _ Hv) as [H1 H2]. split; [exact H1|]. split; [exact H2|].
      intros m Hm. destruct (Hc _ _ _ Hm) as [_ H3]. congruence.
Qed.
Print Assumptions C67_passing_means.

(** The sixteen wrappers pass all four targets. *)
Theorem C67_endian :
  forall (w : wrapper) eqO d, generated_data d ->
  fuzz_absolute_all (endian_encode w) (endian_decode w) (endian_decode_canonic w) (endian_len_of_encoding w)
    (num_eqb (wrapped w)) eqO d = Ret tt.
Proof.
  intros w eqO d G.
  eapply (C67_absolute_targets_pass _ _ _ (endian_encode w) (endian_decode w) (endian_decode_canonic w));
    [apply endian_codec|apply endian_canonic| |apply num_eqb_iff|intros []|exact G].
  intros v. rewrite length_to_bytes. reflexivity.
Qed.
Print Assumptions C67_endian.

(** Data for which the optional bytes of CodecExamples pass; a wrong length and a wrong canonic decoder are noticed by the
    targets that check these, and only by these. *)
Definition opt_data : codec_data (option byte) :=
  mk_codec_data (Some x07) None (test_consumer_build tt 1 (Some [1]) None) (test_consumer_build tt 9 None (Some [true]))
    [x01; x05; x06] [x01; x05] [1] [2; 1] [true] [].
Example C67_example :
  generated_data opt_data /\
  fuzz_absolute_all opt_encode opt_decode opt_decode (fun v => length (opt_enc v)) opt_eqb Byte.eqb opt_data = Ret tt /\
  fuzz_absolute_all opt_encode opt_decode opt_decode (fun v => 1) opt_eqb Byte.eqb opt_data = Panic /\
  fuzz_absolute_canonic opt_encode opt_decode opt_decode opt_eqb Byte.eqb opt_data = Ret tt /\
  fuzz_absolute_known_size opt_encode opt_decode (fun v => 1) opt_eqb Byte.eqb opt_data = Panic /\
  fuzz_absolute_canonic opt_encode opt_decode drop_decode opt_eqb Byte.eqb opt_data = Panic /\
  fuzz_absolute_known_size opt_encode opt_decode (fun v => length (opt_enc v)) opt_eqb Byte.eqb opt_data = Ret tt /\
  fuzz_absolute_basic opt_encode drop_decode opt_eqb Byte.eqb opt_data = Panic.
Proof.
  split.
  - split; [|split; [|split]].
    + exists 1, (Some [1]), None. split; [reflexivity|]. repeat constructor.
    + exists 9, None, (Some [true]). split; [reflexivity|exact Logic.I].
    + repeat constructor.
    + repeat constructor.
  - repeat split; vm_compute; reflexivity.
Qed.

(** *** C68. The targets for relative codecs. *)

(** Exactly what each of them accepts: data whose values are not permitted passes; for other data, the same as for
    absolute codecs. Values that are not permitted need not have an encoding, unless they result
    from decoding. *)
Theorem C68_relative_targets_mean :
  forall V RT O OC (encode : RT -> encode_fn V) (decode : RT -> decode_fn V O) (decode_canonic : RT -> decode_fn V OC)
    len enc dec decc eqV eqO (predicate : V -> RT -> bool) r,
  (forall v, predicate v r = true -> encodes_as (encode r) v (enc v)) ->
  lawful_decode (decode r) dec -> lawful_decode (decode_canonic r) decc ->
  (forall v w, eqV v w = true <-> v = w) -> (forall o o', eqO o o' = true <-> o = o') ->
  forall d, generated_data d ->
  let permitted := predicate (data_t1 d) r = true /\ predicate (data_t2 d) r = true in
  let basic := basic_verdict dec (data_t1 d) (enc (data_t1 d)) (data_t2 d) (enc (data_t2 d)) (data_potential_encoding1 d) in
  let known_size := len (data_t1 d) r = length (enc (data_t1 d)) in
  let canonic := canonic_verdict enc dec decc (data_potential_encoding1 d) (data_potential_encoding2 d) in
  (fuzz_relative_basic encode decode eqV eqO predicate r d = Ret tt <-> (permitted -> basic)) /\
  (fuzz_relative_known_size encode decode len eqV eqO predicate r d = Ret tt <-> (permitted -> basic /\ known_size)) /\
  ((forall v n, decc (data_potential_encoding1 d) = Parsed v n -> encodes_as (encode r) v (enc v)) ->
   (fuzz_relative_canonic encode decode decode_canonic eqV eqO predicate r d = Ret tt <-> (permitted -> basic /\ canonic)) /\
   (fuzz_relative_all encode decode decode_canonic len eqV eqO predicate r d = Ret tt <->
     (permitted -> basic /\ known_size /\ canonic))).
Proof.
  intros V RT O OC encode decode decode_canonic len enc dec decc eqV eqO predicate r HE LD LC HV HO d (G1 & G2 & S1 & S2).
  cbv zeta. unfold fuzz_relative_basic, fuzz_relative_known_size, fuzz_relative_canonic, fuzz_relative_all, data_permitted.
  destruct (predicate (data_t1 d) r) eqn:P1; [|cbn [andb]; split; [|split; [|split]]; split; auto; intros _ [? ?]; discriminate].
  destruct (predicate (data_t2 d) r) eqn:P2; [|cbn [andb]; split; [|split; [|split]]; split; auto; intros _ [? ?]; discriminate].
  cbn [andb]. rewrite !seq_iff.
  rewrite (check_basic eqV eqO HV HO LD d (HE _ P1) (HE _ P2) G1 G2 S1 S2).
  rewrite (check_known_size (fun v => len v r) (HE (data_t1 d) P1)).
  split; [tauto|]. split; [tauto|]. intros HC.
  rewrite (check_canonic eqV HV LD LC enc (data_potential_encoding1 d) (data_potential_encoding2 d) HC). tauto.
Qed.
Print Assumptions C68_relative_targets_mean.

(** Codecs that are lawful on the permitted values pass, if decoding yields permitted values only. *)
Theorem C68_relative_targets_pass :
  forall V RT O OC (encode : RT -> encode_fn V) (decode : RT -> decode_fn V O) (decode_canonic : RT -> decode_fn V OC)
    len enc dec decc eqV eqO (predicate : V -> RT -> bool),
  (forall r, lawful_codec_on (fun v => predicate v r = true) (encode r) (decode r) (enc r) (dec r)) ->
  (forall r, lawful_canonic_on (fun v => predicate v r = true) (decode_canonic r) (enc r) (dec r) (decc r)) ->
  (forall v r, predicate v r = true -> len v r = length (enc r v)) ->
  (forall v w, eqV v w = true <-> v = w) -> (forall o o', eqO o o' = true <-> o = o') ->
  forall r d, generated_data d ->
  fuzz_relative_basic encode decode eqV eqO predicate r d = Ret tt /\
  fuzz_relative_known_size encode decode len eqV eqO predicate r d = Ret tt /\
  fuzz_relative_canonic encode decode decode_canonic eqV eqO predicate r d = Ret tt /\
  fuzz_relative_all encode decode decode_canonic len eqV eqO predicate r d = Ret tt.
Proof.
  intros V RT O OC encode decode decode_canonic len enc dec decc eqV eqO predicate L LC Hl HV HO r d G.
  destruct (C68_relative_targets_mean V RT O OC encode decode decode_canonic len (enc r) (dec r) (decc r) eqV eqO predicate r
    (on_encode (L r)) (on_decode (L r)) (on_canonic_decode (LC r)) HV HO d G) as (H1 & H2 & H3).
  destruct H3 as [H3 H4].
  { intros v n Hv. apply (on_encode (L r)). exact (on_canonic_ok (LC r) _ _ _ Hv). }
  rewrite H1, H2, H3, H4.
  pose proof (verdict_canonic_on (on_canonic_agrees (LC r)) (data_potential_encoding1 d) (data_potential_encoding2 d)) as CC.
  assert (B : predicate (data_t1 d) r = true /\ predicate (data_t2 d) r = true ->
    basic_verdict (dec r) (data_t1 d) (enc r (data_t1 d)) (data_t2 d) (enc r (data_t2 d)) (data_potential_encoding1 d)).
  { intros [P1 P2]. exact (verdict_basic_on (L r) _ _ _ P1 P2). }
  assert (B2 : predicate (data_t1 d) r = true /\ predicate (data_t2 d) r = true -> len (data_t1 d) r = length (enc r (data_t1 d))).
  { intros [P1 _]. auto. }
  tauto.
Qed.
Print Assumptions C68_relative_targets_pass.

(** Data whose values are not both permitted passes, whatever the codec does; so does everything if no value is permitted. *)
Theorem C68_rejected_data_passes :
  forall V RT O OC (encode : RT -> encode_fn V) (decode : RT -> decode_fn V O) (decode_canonic : RT -> decode_fn V OC)
    len eqV eqO (predicate : V -> RT -> bool) r d,
  predicate (data_t1 d) r = false \/ predicate (data_t2 d) r = false ->
  fuzz_relative_all encode decode decode_canonic len eqV eqO predicate r d = Ret tt.
Proof.
  intros V RT O OC encode decode decode_canonic len eqV eqO predicate r d H. unfold fuzz_relative_all, data_permitted.
  destruct H as [-> | ->]; [reflexivity|]. rewrite andb_false_r. reflexivity.
Qed.
Print Assumptions C68_rejected_data_passes.

(** But the targets with canonic decoding encode every value they decode, whether it is permitted or not. *)
Theorem C68_decoded_values_are_encoded :
  forall V RT O OC (encode : RT -> encode_fn V) (decode : RT -> decode_fn V O) (decode_canonic : RT -> decode_fn V OC)
    len eqV eqO (predicate : V -> RT -> bool) r d s v,
  predicate (data_t1 d) r = true -> predicate (data_t2 d) r = true ->
  decode_canonic r _ _ _ from_slice_producer (from_slice_new (data_potential_encoding1 d)) = Ret (s, Ok v) ->
  encode_into_vec (encode r) v = Panic ->
  fuzz_relative_canonic encode decode decode_canonic eqV eqO predicate r d <> Ret tt /\
  fuzz_relative_all encode decode decode_canonic len eqV eqO predicate r d <> Ret tt.
Proof.
  intros V RT O OC encode decode decode_canonic len eqV eqO predicate r d s v P1 P2 Hd He.
  unfold fuzz_relative_canonic, fuzz_relative_all, data_permitted. rewrite P1, P2. cbn [andb]. rewrite !seq_iff.
  assert (H : assert_canonic_invariants (encode r) (decode r) (decode_canonic r) eqV
    (data_potential_encoding1 d) (data_potential_encoding2 d) <> Ret tt).
  { unfold assert_canonic_invariants. rewrite !seq_iff. intros (_ & _ & H). unfold assert_canonic_decoding_roundtrips in H.
    rewrite Hd in H. cbn [bind] in H. rewrite He in H. discriminate. }
  tauto.
Qed.
Print Assumptions C68_decoded_values_are_encoded.

(** Numbers encoded as the difference from the reference value, which has to fit into a byte. *)
Definition diff_permitted (v r : nat) : bool := (r <=? v) && (v <=? r + 255).
Definition diff_enc (r v : nat) : list byte := match Byte.of_nat (v - r) with Some b => [b] | None => [] end.
Definition diff_dec (r : nat) (xs : list byte) : parse nat infallible :=
  match xs with [] => Truncated | b :: _ => Parsed (r + Byte.to_nat b) 1 end.
Definition diff_encode (r : nat) : encode_fn nat :=
  fun S F E C v s =>
    if diff_permitted v r then
      let* (s, res) := bulk_consume_full_slice 2 C (diff_enc r v) s in Ret (s, map_err (@cale_reason E) res)
    else Panic.
Definition diff_decode (r : nat) : decode_fn nat infallible :=
  fun S F E P s =>
    let* (s, res) := p_produce P s in
    match res with
    | Err e => Ret (s, Err (Producer e))
    | Ok (inr f) => Ret (s, Err (UnexpectedEndOfInput f))
    | Ok (inl b) => Ret (s, Ok (r + Byte.to_nat b))
    end.

Lemma diff_lawful_decode : forall r, lawful_decode (diff_decode r) (diff_dec r).
Proof.
  intros r S F E P R D L s xs l k HR. unfold diff_decode. destruct xs as [|x xs].
  - cbn [diff_dec]. destruct (lp_produce_last (lp_core L) HR) as (s' & E1 & HD). exists s'. rewrite E1. destruct l; auto.
  - destruct (lp_produce (lp_core L) HR) as (s1 & E1 & HR1). apply (lp_forget (lp_core L)) in HR1. rewrite E1. exists s1. auto.
Qed.

Lemma diff_permitted_iff : forall v r, diff_permitted v r = true <-> exists b, v = r + Byte.to_nat b.
Proof.
  intros v r. unfold diff_permitted. rewrite andb_true_iff, !Nat.leb_le. split.
  - intros [H1 H2]. destruct (Byte.of_nat (v - r)) as [b|] eqn:Eb.
    + exists b. apply Byte.to_of_nat in Eb. lia.
    + apply Byte.of_nat_None_iff in Eb. lia.
  - intros (b & ->). pose proof (Byte.to_nat_bounded b). lia.
Qed.

Lemma diff_enc_add : forall r b, diff_enc r (r + Byte.to_nat b) = [b].
Proof. intros r b. unfold diff_enc. replace (r + Byte.to_nat b - r) with (Byte.to_nat b) by lia. now rewrite Byte.of_to_nat. Qed.

Lemma diff_reads : forall r, reads_no_further (diff_dec r).
Proof. split; intros [|x xs] v n H; try discriminate. injection H as <- <-. cbn. split; auto. lia. Qed.

Lemma diff_codec : forall r, lawful_codec_on (fun v => diff_permitted v r = true) (diff_encode r) (diff_decode r) (diff_enc r) (diff_dec r).
Proof.
  intros r. constructor.
  - intros v Hv S A F E C M R D L s a k wr HR. unfold diff_encode. rewrite Hv. apply diff_permitted_iff in Hv as (b & ->).
    rewrite diff_enc_add.
    pose proof (@PipeProofs.bulk_consume_full_slice_lawful _ _ _ _ _ C M R D L 2 [b] s a k wr HR ltac:(cbn; lia)) as H.
    destruct (m_feed M [b] a) as [[a' n] [e|]].
    + destruct H as (s' & m & E1 & HD & _). exists s'. rewrite E1. auto.
    + destruct H as (s' & E1 & HR'). exists s'. rewrite E1. auto.
  - apply diff_lawful_decode.
  - apply diff_reads.
  - intros v Hv. apply diff_permitted_iff in Hv as (b & ->). rewrite diff_enc_add. reflexivity.
Qed.

Lemma diff_canonic : forall r, lawful_canonic_on (fun v => diff_permitted v r = true) (diff_decode r) (diff_enc r) (diff_dec r) (diff_dec r).
Proof.
  intros r. constructor.
  - apply diff_lawful_decode.
  - apply diff_reads.
  - intros [|x xs] v n H; [discriminate|]. split; auto. injection H as <- <-. rewrite diff_enc_add. reflexivity.
  - intros [|x xs] v n H; [discriminate|]. injection H as <- _. apply diff_permitted_iff. eauto.
Qed.

(** It passes with the right predicate, although encoding other values panics. With a predicate that permits too much it panics;
    with one that permits fewer values than can be decoded, it passes as long as these can be encoded. *)
Definition diff_data (t1 t2 : nat) : codec_data nat :=
  mk_codec_data t1 t2 (test_consumer_build tt 1 (Some [1]) None) (test_consumer_build tt 0 None None)
    [x64] [x65; x00] [1] [] [] [true].
Definition strict_encode (r : nat) : encode_fn nat := fun S F E C v s => if v <=? r + 9 then diff_encode r _ _ _ C v s else Panic.
Example C68_example :
  (forall r d, generated_data d ->
    fuzz_relative_all diff_encode diff_decode diff_decode (fun _ _ => 1) Nat.eqb (fun _ _ => true) diff_permitted r d = Ret tt) /\
  diff_permitted 42 40 = true /\ diff_permitted 7 40 = false /\ encode_into_vec (diff_encode 40) 7 = Panic /\
  fuzz_relative_all diff_encode diff_decode diff_decode (fun _ _ => 1) Nat.eqb (fun _ _ => true) (fun _ _ => true) 40 (diff_data 7 42) = Panic /\
  fuzz_relative_canonic strict_encode diff_decode diff_decode Nat.eqb (fun _ _ => true) (fun v r => v <=? r + 9) 40 (diff_data 42 43) = Panic /\
  fuzz_relative_basic strict_encode diff_decode Nat.eqb (fun _ _ => true) (fun v r => v <=? r + 9) 40 (diff_data 42 43) = Ret tt /\
  fuzz_relative_known_size strict_encode diff_decode (fun _ _ => 2) Nat.eqb (fun _ _ => true) (fun v r => v <=? r + 9) 40 (diff_data 42 43) = Panic /\
  fuzz_relative_known_size strict_encode diff_decode (fun _ _ => 2) Nat.eqb (fun _ _ => true) (fun v r => v <=? r + 9) 40 (diff_data 42 53) = Ret tt.
Proof.
  split; [|repeat split; vm_compute; reflexivity]. intros r d G.
  eapply (C68_relative_targets_pass _ _ _ _ diff_encode diff_decode diff_decode); [apply diff_codec|apply diff_canonic| |apply Nat.eqb_eq|intros []|exact G].
  intros v r' Hv. apply diff_permitted_iff in Hv as (b & ->). rewrite diff_enc_add. reflexivity.
Qed.

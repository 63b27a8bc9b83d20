(** Properties C69 and C70: generation of test vectors. [arb] is the implementation of [Arbitrary] for the data of the corpus,
    [dbg_value] and so on are the implementations of [Debug]. *)
From Coq Require Import Bool List Arith ZArith String Lia.
From Coq.Init Require Import Byte.
From Verif Require Import Prelude ListFacts Traits Contracts ContractFacts BasicModel CodecModel CodecSpec CodecProofs
  EndianModel EndianSpec EndianProofs CodecExamples CodecFuzzSpec CodecFuzzProofs VectorModel VectorSpec VectorProofs.
Import ListNotations.
Local Open Scope string_scope.

Definition no_files : file_system := fun _ _ => None.

(** *** C69. For every corpus, [inputs] being the data that its files stand for: the [n]-th input results in the test vector
    with number [n], and no other files are written. *)

Theorem C69_absolute_vectors :
  forall V O (encode : encode_fn V) (decode : decode_fn V O) enc dec arb dbg_value dbg_error,
  (forall xs v n, dec xs = Parsed v n -> encodes_as encode v (enc v)) -> lawful_decode decode dec ->
  forall corpus inputs out_dir, map arb corpus = map Some inputs ->
  exists out_dir', generate_test_vectors_absolute encode decode arb dbg_value dbg_error corpus out_dir = Ret out_dir' /\
    holds_vectors (vector_absolute enc dec dbg_value dbg_error) inputs out_dir out_dir'.
Proof.
  intros V O encode decode enc dec arb dbg_value dbg_error HE LD corpus inputs out_dir H.
  apply (@generate_holds _ _ arb); [|apply vector_absolute_nodup|exact H].
  apply (@single_absolute _ _ _ _ enc dec); [|exact LD]. intros xs v n Hv. exact (encodes_into_vec (HE xs v n Hv)).
Qed.
Print Assumptions C69_absolute_vectors.

Theorem C69_canonic_vectors :
  forall V OC (decode_canonic : decode_fn V OC) decc arb dbg_value dbg_error, lawful_decode decode_canonic decc ->
  forall corpus inputs out_dir, map arb corpus = map Some inputs ->
  exists out_dir', generate_test_vectors_canonic_absolute decode_canonic arb dbg_value dbg_error corpus out_dir = Ret out_dir' /\
    holds_vectors (vector_canonic decc dbg_value dbg_error) inputs out_dir out_dir'.
Proof.
  intros V OC decode_canonic decc arb dbg_value dbg_error LC corpus inputs out_dir H.
  apply (@generate_holds _ _ arb); [|apply vector_canonic_nodup|exact H].
  apply (@single_canonic _ _ _ decc). exact LC.
Qed.
Print Assumptions C69_canonic_vectors.

(** Both for decoding and for canonic decoding; [encode_r] is [encode_into_vec] or a function supplied by the caller. *)
Theorem C69_relative_vectors :
  forall V RT O (encode : encode_fn V) (decode : RT -> decode_fn V O) enc dec encode_r enc_r arb dbg_pair dbg_reference dbg_error,
  (forall r xs v n, dec r xs = Parsed v n -> encodes_as encode v (enc v)) -> (forall r, lawful_decode (decode r) (dec r)) ->
  (forall r, encode_r r = Ret (enc_r r)) ->
  forall corpus inputs out_dir, map arb corpus = map Some inputs ->
  exists out_dir',
    generate_test_vectors_relative encode decode arb encode_r dbg_pair dbg_reference dbg_error corpus out_dir = Ret out_dir' /\
    holds_vectors (vector_relative enc dec enc_r dbg_pair dbg_reference dbg_error) inputs out_dir out_dir'.
Proof.
  intros V RT O encode decode enc dec encode_r enc_r arb dbg_pair dbg_reference dbg_error HE LD HR corpus inputs out_dir H.
  apply (@generate_holds _ _ arb); [|apply vector_relative_nodup|exact H].
  apply (@single_relative _ _ _ _ _ enc dec); [|exact LD|exact HR]. intros r xs v n Hv. exact (encodes_into_vec (HE r xs v n Hv)).
Qed.
Print Assumptions C69_relative_vectors.

(** A file of the corpus that does not stand for any data makes the whole generation panic. *)
Theorem C69_unusable_corpus_panics :
  forall V O (encode : encode_fn V) (decode : decode_fn V O) enc dec arb dbg_value dbg_error,
  (forall xs v n, dec xs = Parsed v n -> encodes_as encode v (enc v)) -> lawful_decode decode dec ->
  forall corpus out_dir data, In data corpus -> arb data = None ->
  generate_test_vectors_absolute encode decode arb dbg_value dbg_error corpus out_dir = Panic /\
  generate_test_vectors_canonic_absolute decode arb dbg_value dbg_error corpus out_dir = Panic.
Proof.
  intros V O encode decode enc dec arb dbg_value dbg_error HE LD corpus out_dir data Hin Hn. split.
  - apply (@generate_panics _ (vector_absolute enc dec dbg_value dbg_error) arb); [|eauto].
    apply (@single_absolute _ _ _ _ enc dec); [|exact LD]. intros xs v n Hv. exact (encodes_into_vec (HE xs v n Hv)).
  - apply (@generate_panics _ (vector_canonic dec dbg_value dbg_error) arb); [|eauto]. apply (@single_canonic _ _ _ dec). exact LD.
Qed.
Print Assumptions C69_unusable_corpus_panics.

Theorem C69_relative_unusable_corpus_panics :
  forall V RT O (encode : encode_fn V) (decode : RT -> decode_fn V O) enc dec encode_r enc_r arb dbg_pair dbg_reference dbg_error,
  (forall r xs v n, dec r xs = Parsed v n -> encodes_as encode v (enc v)) -> (forall r, lawful_decode (decode r) (dec r)) ->
  (forall r, encode_r r = Ret (enc_r r)) ->
  forall corpus out_dir data, In data corpus -> arb data = None ->
  generate_test_vectors_relative encode decode arb encode_r dbg_pair dbg_reference dbg_error corpus out_dir = Panic.
Proof.
  intros V RT O encode decode enc dec encode_r enc_r arb dbg_pair dbg_reference dbg_error HE LD HR corpus out_dir data Hin Hn.
  apply (@generate_panics _ (vector_relative enc dec enc_r dbg_pair dbg_reference dbg_error) arb); [|eauto].
  apply (@single_relative _ _ _ _ _ enc dec); [|exact LD|exact HR]. intros r xs v n Hv. exact (encodes_into_vec (HE r xs v n Hv)).
Qed.
Print Assumptions C69_relative_unusable_corpus_panics.

(** In an output directory that was empty: every input is in exactly one of [yay] and [nay], depending on whether it
    starts with an encoding; there are no other numbers. *)
Theorem C69_vectors_are_sorted :
  forall V O (encode : encode_fn V) (decode : decode_fn V O) enc dec arb dbg_value dbg_error,
  (forall xs v n, dec xs = Parsed v n -> encodes_as encode v (enc v)) -> lawful_decode decode dec ->
  forall corpus inputs out_dir, map arb corpus = map Some inputs ->
  generate_test_vectors_absolute encode decode arb dbg_value dbg_error corpus no_files = Ret out_dir ->
  forall n,
    match nth_error inputs n with
    | Some bytes =>
        ((exists v k, dec bytes = Parsed v k) /\ out_dir "yay" n = Some bytes /\ out_dir "nay" n = None) \/
        ((forall v k, dec bytes <> Parsed v k) /\ out_dir "yay" n = None /\ out_dir "nay" n = Some bytes)
    | None => forall dir, out_dir dir n = None
    end.
Proof.
  intros V O encode decode enc dec arb dbg_value dbg_error HE LD corpus inputs out_dir H HG n.
  destruct (C69_absolute_vectors V O encode decode enc dec arb dbg_value dbg_error HE LD corpus inputs no_files H) as (o & E1 & HH).
  rewrite E1 in HG. injection HG as ->. destruct (nth_error inputs n) as [bytes|] eqn:En.
  - pose proof (HH "yay" n) as H1. pose proof (HH "nay" n) as H2. rewrite En in H1, H2. unfold vector_absolute in H1, H2.
    destruct (dec bytes) as [v k|e k|] eqn:Ed; cbn in H1, H2; [left; eauto|right|right]; splits; auto; intros; discriminate.
  - intros dir. rewrite HH, En. reflexivity.
Qed.
Print Assumptions C69_vectors_are_sorted.

Theorem C69_relative_vectors_are_sorted :
  forall V RT O (encode : encode_fn V) (decode : RT -> decode_fn V O) enc dec encode_r enc_r arb dbg_pair dbg_reference dbg_error,
  (forall r xs v n, dec r xs = Parsed v n -> encodes_as encode v (enc v)) -> (forall r, lawful_decode (decode r) (dec r)) ->
  (forall r, encode_r r = Ret (enc_r r)) ->
  forall corpus inputs out_dir, map arb corpus = map Some inputs ->
  generate_test_vectors_relative encode decode arb encode_r dbg_pair dbg_reference dbg_error corpus no_files = Ret out_dir ->
  forall n,
    match nth_error inputs n with
    | Some (bytes, r) =>
        ((exists v k, dec r bytes = Parsed v k) /\ out_dir "yay" n = Some bytes /\ out_dir "yay_relative_to" n = Some (enc_r r) /\
         out_dir "nay" n = None /\ out_dir "nay_relative_to" n = None) \/
        ((forall v k, dec r bytes <> Parsed v k) /\ out_dir "yay" n = None /\ out_dir "yay_relative_to" n = None /\
         out_dir "nay" n = Some bytes /\ out_dir "nay_relative_to" n = Some (enc_r r))
    | None => forall dir, out_dir dir n = None
    end.
Proof.
  intros V RT O encode decode enc dec encode_r enc_r arb dbg_pair dbg_reference dbg_error HE LD HR corpus inputs out_dir H HG n.
  destruct (C69_relative_vectors V RT O encode decode enc dec encode_r enc_r arb dbg_pair dbg_reference dbg_error HE LD HR corpus inputs no_files H)
    as (o & E1 & HH).
  rewrite E1 in HG. injection HG as ->. destruct (nth_error inputs n) as [[bytes r]|] eqn:En.
  - pose proof (HH "yay" n) as H1. pose proof (HH "nay" n) as H2.
    pose proof (HH "yay_relative_to" n) as H3. pose proof (HH "nay_relative_to" n) as H4.
    rewrite En in H1, H2, H3, H4. unfold vector_relative in H1, H2, H3, H4.
    destruct (dec r bytes) as [v k|e k|] eqn:Ed; cbn in H1, H2, H3, H4; [left|right|right]; splits; eauto; intros; discriminate.
  - intros dir. rewrite HH, En. reflexivity.
Qed.
Print Assumptions C69_relative_vectors_are_sorted.

(** The file in [reencoded] is an encoding, of the value that the file in [yay] with the same number starts with. *)
Theorem C69_reencoded_decodes :
  forall V O (encode : encode_fn V) (decode : decode_fn V O) enc dec arb dbg_value dbg_error,
  lawful_codec encode decode enc dec ->
  forall corpus inputs out_dir, map arb corpus = map Some inputs ->
  generate_test_vectors_absolute encode decode arb dbg_value dbg_error corpus no_files = Ret out_dir ->
  forall n reencoded, out_dir "reencoded" n = Some reencoded ->
  exists bytes v k, out_dir "yay" n = Some bytes /\ dec bytes = Parsed v k /\ out_dir "dbg" n = Some (dbg_value v) /\
    dec reencoded = Parsed v (List.length reencoded).
Proof.
  intros V O encode decode enc dec arb dbg_value dbg_error L corpus inputs out_dir H HG n reencoded HR.
  assert (HE : forall xs v n, dec xs = Parsed v n -> encodes_as encode v (enc v)).
  { intros xs v k _. apply lawful_encodes_as. apply (codec_encode L). }
  destruct (C69_absolute_vectors V O encode decode enc dec arb dbg_value dbg_error HE (codec_decode L) corpus inputs no_files H) as (o & E1 & HH).
  rewrite E1 in HG. injection HG as ->. pose proof (HH "yay" n) as H1. pose proof (HH "dbg" n) as H2. rewrite HH in HR.
  destruct (nth_error inputs n) as [bytes|] eqn:En; [|discriminate]. unfold vector_absolute in HR, H1, H2.
  destruct (dec bytes) as [v k|e k|] eqn:Ed; cbn in HR, H1, H2; try discriminate. injection HR as <-.
  exists bytes, v, k. splits; auto. apply (codec_round_trips L).
Qed.
Print Assumptions C69_reencoded_decodes.

(** With canonic decoding there is no [reencoded], but none is needed: a file in [yay] starts with the encoding of the value. *)
Theorem C69_canonic_yay :
  forall V O OC (encode : encode_fn V) (decode : decode_fn V O) (decode_canonic : decode_fn V OC) enc dec decc arb dbg_value dbg_error,
  lawful_codec encode decode enc dec -> lawful_canonic decode_canonic enc dec decc ->
  forall corpus inputs out_dir, map arb corpus = map Some inputs ->
  generate_test_vectors_canonic_absolute decode_canonic arb dbg_value dbg_error corpus no_files = Ret out_dir ->
  forall n bytes, out_dir "yay" n = Some bytes ->
  exists v rest, bytes = (enc v ++ rest)%list /\ out_dir "dbg" n = Some (dbg_value v) /\ out_dir "reencoded" n = None.
Proof.
  intros V O OC encode decode decode_canonic enc dec decc arb dbg_value dbg_error L LC corpus inputs out_dir H HG n bytes HR.
  destruct (C69_canonic_vectors V OC decode_canonic decc arb dbg_value dbg_error (canonic_decode LC) corpus inputs no_files H) as (o & E1 & HH).
  rewrite E1 in HG. injection HG as ->. pose proof (HH "dbg" n) as H1. pose proof (HH "reencoded" n) as H2. rewrite HH in HR.
  destruct (nth_error inputs n) as [bytes'|] eqn:En; [|discriminate]. unfold vector_canonic in HR, H1, H2.
  destruct (decc bytes') as [v k|e k|] eqn:Ed; cbn in HR, H1, H2; try discriminate. injection HR as <-.
  exists v, (skipn k bytes'). splits; auto. destruct (canonic_agrees LC _ _ _ Ed) as [_ ->]. symmetry. apply firstn_skipn.
Qed.
Print Assumptions C69_canonic_yay.

(** The fuzz targets that build the corpora never panic. *)
Theorem C69_corpus_targets_return :
  (forall V O (decode : decode_fn V O) dec, lawful_decode decode dec -> forall data, fuzz_absolute_corpus decode data = Ret tt) /\
  (forall V RT O (decode : RT -> decode_fn V O) dec, (forall r, lawful_decode (decode r) (dec r)) ->
     forall data, fuzz_relative_corpus decode data = Ret tt).
Proof.
  split.
  - intros V O decode dec L data. unfold fuzz_absolute_corpus. rewrite (decode_from_slice_ok L). reflexivity.
  - intros V RT O decode dec L [bytes r]. unfold fuzz_relative_corpus, relative_decode_from_slice.
    rewrite (decode_from_slice_ok (L r)). reflexivity.
Qed.
Print Assumptions C69_corpus_targets_return.

(** Four files, with an implementation of [Arbitrary] that drops the first byte. *)
Definition drop_first (data : list byte) : option (list byte) := match data with [] => None | _ :: bytes => Some bytes end.
Definition opt_dbg (v : option byte) : list byte := match v with None => [xaa] | Some b => [xbb; b] end.
Definition opt_dbg_error (e : decode_error unit infallible byte) : list byte := match e with Other b => [xee; b] | _ => [xef] end.
Definition four_files : list (list byte) := [[x00; x01; x05; x09]; [x00; x01]; [x00; x07; x00]; [x00; x00]].
Example C69_example :
  map drop_first four_files = map Some [[x01; x05; x09]; [x01]; [x07; x00]; [x00]] /\
  (forall o, generate_test_vectors_absolute opt_encode opt_decode drop_first opt_dbg opt_dbg_error four_files no_files = Ret o ->
    o "yay" 0 = Some [x01; x05; x09] /\ o "dbg" 0 = Some [xbb; x05] /\ o "reencoded" 0 = Some [x01; x05] /\ o "nay" 0 = None /\
    o "nay" 1 = Some [x01] /\ o "nay_reason" 1 = Some [xef] /\ o "dbg" 1 = None /\
    o "nay" 2 = Some [x07; x00] /\ o "nay_reason" 2 = Some [xee; x07] /\ o "yay" 2 = None /\
    o "yay" 3 = Some [x00] /\ o "reencoded" 3 = Some [x00] /\ o "yay" 4 = None) /\
  generate_test_vectors_absolute opt_encode opt_decode drop_first opt_dbg opt_dbg_error (four_files ++ [[]]) no_files = Panic /\
  fuzz_absolute_corpus opt_decode [x07] = Ret tt.
Proof.
  split; [reflexivity|]. split; [|split; vm_compute; reflexivity]. intros o H. vm_compute in H. injection H as <-.
  repeat split; vm_compute; reflexivity.
Qed.

(** *** C70. Test vectors of relative codecs, and existing files. *)

(** A file in [reencoded] is the absolute encoding of the value. So it decodes to the value, relative to the reference value, if
    absolute encodings of values are also encodings relative to it. *)
Theorem C70_relative_reencoded :
  forall V RT O (encode : encode_fn V) (decode : RT -> decode_fn V O) enc dec encode_r enc_r arb dbg_pair dbg_reference dbg_error,
  lawful_encode encode enc -> (forall r, lawful_decode (decode r) (dec r)) -> (forall r, encode_r r = Ret (enc_r r)) ->
  (forall r v, dec r (enc v) = Parsed v (List.length (enc v))) ->
  forall corpus inputs out_dir, map arb corpus = map Some inputs ->
  generate_test_vectors_relative encode decode arb encode_r dbg_pair dbg_reference dbg_error corpus no_files = Ret out_dir ->
  forall n reencoded, out_dir "reencoded" n = Some reencoded ->
  exists bytes r v k, nth_error inputs n = Some (bytes, r) /\ out_dir "yay" n = Some bytes /\
    out_dir "yay_relative_to" n = Some (enc_r r) /\ dec r bytes = Parsed v k /\ dec r reencoded = Parsed v (List.length reencoded).
Proof.
  intros V RT O encode decode enc dec encode_r enc_r arb dbg_pair dbg_reference dbg_error LE LD HR HT corpus inputs out_dir H HG n reencoded HN.
  assert (HE : forall r xs v n, dec r xs = Parsed v n -> encodes_as encode v (enc v)).
  { intros r xs v k _. apply lawful_encodes_as. exact LE. }
  destruct (C69_relative_vectors V RT O encode decode enc dec encode_r enc_r arb dbg_pair dbg_reference dbg_error HE LD HR corpus inputs no_files H)
    as (o & E1 & HH).
  rewrite E1 in HG. injection HG as ->. pose proof (HH "yay" n) as H1. pose proof (HH "yay_relative_to" n) as H2. rewrite HH in HN.
  destruct (nth_error inputs n) as [[bytes r]|] eqn:En; [|discriminate]. unfold vector_relative in HN, H1, H2.
  destruct (dec r bytes) as [v k|e k|] eqn:Ed; cbn in HN, H1, H2; try discriminate. injection HN as <-.
  exists bytes, r, v, k. splits; auto.
Qed.
Print Assumptions C70_relative_reencoded.

(** Not in general: a [u16] with the byte order given by the reference value, whose absolute encoding is little-endian. *)
Definition pair_of (data : list byte) : option (list byte * bool) :=
  match data with x00 :: bytes => Some (bytes, false) | x01 :: bytes => Some (bytes, true) | _ => None end.
Definition bool_enc (r : bool) : list byte := if r then [x01] else [x00].
Definition num_dbg (v : num u16) (r : bool) : list byte := [].
Theorem C70_relative_reencoded_refuted :
  exists V RT O (encode : encode_fn V) (rel_encode : RT -> encode_fn V) (decode : RT -> decode_fn V O) enc rel_enc dec encode_r enc_r arb
    dbg_pair dbg_reference dbg_error corpus out_dir bytes r v w reencoded,
  lawful_encode encode enc /\ (forall r, lawful_codec (rel_encode r) (decode r) (rel_enc r) (dec r)) /\
  (forall r, encode_r r = Ret (enc_r r)) /\ map arb corpus = [Some (bytes, r)] /\
  generate_test_vectors_relative encode decode arb encode_r dbg_pair dbg_reference dbg_error corpus no_files = Ret out_dir /\
  out_dir "yay" 0 = Some bytes /\ out_dir "yay_relative_to" 0 = Some (enc_r r) /\ out_dir "reencoded" 0 = Some reencoded /\
  dec r bytes = Parsed v 2 /\ dec r reencoded = Parsed w 2 /\ v <> w.
Proof.
  destruct (C69_relative_vectors _ _ _ (endian_encode U16LE) rel_decode (to_bytes U16LE) rel_dec (fun r => Ret (bool_enc r)) bool_enc
    pair_of num_dbg bool_enc (fun _ => [])
    (fun r xs v n _ => proj1 (lawful_encodes_as _ _) (endian_lawful_encode U16LE) v) (fun r => codec_decode (rel_codec r)) (fun r => eq_refl)
    [[x01; x01; x02]] [([x01; x02], true)] no_files eq_refl) as (o & E1 & HH).
  eexists (num u16), bool, infallible, (endian_encode U16LE), rel_encode, rel_decode, (to_bytes U16LE), rel_enc, rel_dec,
    (fun r => Ret (bool_enc r)), bool_enc, pair_of, num_dbg, bool_enc, (fun _ => []), [[x01; x01; x02]], o, [x01; x02], true,
    (from_bytes U16BE [x01; x02]), (from_bytes U16BE [x02; x01]), [x02; x01].
  split; [exact (endian_lawful_encode U16LE)|]. split; [exact rel_codec|]. split; [reflexivity|]. split; [reflexivity|]. split; [exact E1|].
  split; [rewrite HH; vm_compute; reflexivity|]. split; [rewrite HH; vm_compute; reflexivity|].
  split; [rewrite HH; vm_compute; reflexivity|]. split; [vm_compute; reflexivity|]. split; [vm_compute; reflexivity|].
  intros H. apply (f_equal (@num_val _)) in H. vm_compute in H. discriminate.
Qed.
Print Assumptions C70_relative_reencoded_refuted.

(** Existing files in the output directory are kept: writing the vectors of a second corpus into the same directory can
    leave a number in both [yay] and [nay]. *)
Theorem C70_stale_files_refuted :
  exists V O (encode : encode_fn V) (decode : decode_fn V O) enc dec arb dbg_value dbg_error corpus1 corpus2 out_dir1 out_dir2,
  lawful_codec encode decode enc dec /\
  generate_test_vectors_absolute encode decode arb dbg_value dbg_error corpus1 no_files = Ret out_dir1 /\
  generate_test_vectors_absolute encode decode arb dbg_value dbg_error corpus2 out_dir1 = Ret out_dir2 /\
  out_dir2 "yay" 0 <> None /\ out_dir2 "nay" 0 <> None.
Proof.
  exists (option byte), byte, opt_encode, opt_decode, opt_enc, opt_dec, Some, opt_dbg, opt_dbg_error, [[x00]], [[x01]].
  do 2 eexists. split; [exact opt_codec|]. split; [vm_compute; reflexivity|]. split; [vm_compute; reflexivity|].
  split; vm_compute; discriminate.
Qed.
Print Assumptions C70_stale_files_refuted.

(** In general, what the second run does not write stays. *)
Theorem C70_existing_files_stay :
  forall V O (encode : encode_fn V) (decode : decode_fn V O) enc dec arb dbg_value dbg_error,
  (forall xs v n, dec xs = Parsed v n -> encodes_as encode v (enc v)) -> lawful_decode decode dec ->
  forall corpus inputs out_dir out_dir', map arb corpus = map Some inputs ->
  generate_test_vectors_absolute encode decode arb dbg_value dbg_error corpus out_dir = Ret out_dir' ->
  forall dir n contents, out_dir dir n = Some contents ->
  (List.length inputs <= n \/ ~ In dir ["yay"; "dbg"; "reencoded"; "nay"; "nay_reason"]) -> out_dir' dir n = Some contents.
Proof.
  intros V O encode decode enc dec arb dbg_value dbg_error HE LD corpus inputs out_dir out_dir' H HG dir n contents HO HC.
  destruct (C69_absolute_vectors V O encode decode enc dec arb dbg_value dbg_error HE LD corpus inputs out_dir H) as (o & E1 & HH).
  rewrite E1 in HG. injection HG as ->. rewrite HH. destruct (nth_error inputs n) as [bytes|] eqn:En; [|exact HO].
  destruct HC as [HC|HC]; [apply nth_error_None in HC; congruence|].
  rewrite in_dir_None; [exact HO|]. intros Hin. apply HC. unfold vector_absolute in Hin.
  destruct (dec bytes); cbn in Hin |- *; tauto.
Qed.
Print Assumptions C70_existing_files_stay.

Example C70_example :
  forall o, generate_test_vectors_relative (endian_encode U16BE) (fun _ : bool => endian_decode U16BE) pair_of (fun r => Ret (bool_enc r)) num_dbg
    bool_enc (fun _ => []) [[x01; x01; x02; x03]; [x00; x07]] no_files = Ret o ->
  o "yay" 0 = Some [x01; x02; x03] /\ o "yay_relative_to" 0 = Some [x01] /\ o "reencoded" 0 = Some [x01; x02] /\
  o "nay" 1 = Some [x07] /\ o "nay_relative_to" 1 = Some [x00] /\ o "nay_dbg" 1 = Some [x00] /\ o "yay" 1 = None.
Proof. intros o H. vm_compute in H. injection H as <-. repeat split; vm_compute; reflexivity. Qed.

(** Properties C47-C50 and C53: the codec traits and adaptors, for every lawful codec. [enc v] is the encoding of
    [v], [dec xs] the result of decoding the start of [xs]; see CodecSpec.v. The theorems about decoding hold for
    [decode] and for [decode_canonic] alike. *)
From Coq Require Import Bool List Arith ZArith Lia.
From Coq.Init Require Import Byte.
From Verif Require Import Prelude ListFacts Traits Contracts ContractFacts PipeSpec PipeProofs BasicModel BasicSpec
  BasicProofs   CodecModel CodecSpec CodecProofs EndianModel EndianProofs CodecExamples.
Import ListNotations.

(** *** C47 *)

Theorem C47_encode_into_vec :
  forall V (encode : encode_fn V) enc (len : V -> nat) v, lawful_encode encode enc ->
  encode_into_vec encode v = Ret (enc v) /\ encode_into_boxed_slice encode len v = Ret (enc v).
Proof.
  intros V encode enc len v L. split; [now apply encode_into_vec_ok|now apply encode_into_boxed_slice_ok].
Qed.
Print Assumptions C47_encode_into_vec.

(** These are the bytes that any other consumer receives. *)
Theorem C47_any_consumer :
  forall V (encode : encode_fn V) enc v bs S A F E (C : bulk_consumer S byte F E) (M : machine A byte F E) R D s a k w,
  lawful_encode encode enc -> lawful_consumer C M R D -> R s a k w ->
  encode_into_vec encode v = Ret bs ->
  match m_feed M bs a with
  | (a', _, None) => exists s', encode _ _ _ C v s = Ret (s', Ok tt) /\ R s' a' 0 []
  | (a', _, Some e) => exists s', encode _ _ _ C v s = Ret (s', Err e) /\ D s' a'
  end.
Proof.
  intros V encode enc v bs S A F E C M R D s a k w L LC HR H. rewrite (encode_into_vec_ok L) in H. injection H as <-.
  exact (L _ _ _ _ _ _ _ _ LC v _ _ _ _ HR).
Qed.
Print Assumptions C47_any_consumer.

Theorem C47_relative :
  forall V RT (encode : RT -> encode_fn V) enc (len : V -> RT -> nat) v r,
  (forall r, lawful_encode (encode r) (enc r)) ->
  relative_encode_into_vec encode v r = Ret (enc r v) /\
  relative_encode_into_boxed_slice encode len v r = Ret (enc r v).
Proof.
  intros V RT encode enc len v r L. split; [now apply encode_into_vec_ok|now apply encode_into_boxed_slice_ok].
Qed.
Print Assumptions C47_relative.

(** Decoding from a slice and from any other producer of the same bytes that ends with [()]. *)
Theorem C47_decode_from_slice :
  forall V O (decode : decode_fn V O) dec xs S (P : bulk_producer S byte unit infallible) R D s k,
  lawful_decode decode dec -> lawful_producer P R D -> R s xs (Ok tt) k ->
  exists s' r, decode _ _ _ P s = Ret (s', r) /\ decode_from_slice decode xs = Ret r.
Proof.
  intros V O decode dec xs S P R D s k L LP HR. rewrite (decode_from_slice_ok L).
  specialize (L _ _ _ _ _ _ LP _ _ _ _ HR). unfold parse_result.
  destruct (dec xs) as [v n|o n|]; destruct L as (s' & -> & _); eauto.
Qed.
Print Assumptions C47_decode_from_slice.

(** ... and what the result is. *)
Theorem C47_decode_result :
  forall V O (decode : decode_fn V O) dec xs, lawful_decode decode dec ->
  decode_from_slice decode xs = Ret (match dec xs with
    | Parsed v _ => Ok v
    | Failed o _ => Err (Other o)
    | Truncated => Err (UnexpectedEndOfInput tt)
    end).
Proof. intros V O decode dec xs L. exact (decode_from_slice_ok L xs). Qed.
Print Assumptions C47_decode_result.

Example C47_example :
  encode_into_vec opt_encode (Some x07) = Ret [x01; x07] /\
  encode_into_boxed_slice opt_encode (fun _ => 0) (Some x07) = Ret [x01; x07] /\
  decode_from_slice opt_decode [x01; x07; x05] = Ret (Ok (Some x07)) /\
  decode_from_slice opt_decode [x05] = Ret (Err (Other x05)) /\
  lawful_encode opt_encode opt_enc /\ lawful_decode opt_decode opt_dec.
Proof. splits; try (vm_compute; reflexivity); [exact opt_lawful_encode|exact opt_lawful_decode]. Qed.

(** *** C48 *)

Theorem C48_round_trip :
  forall V O (encode : encode_fn V) (decode : decode_fn V O) enc dec (vs : list V),
  lawful_codec encode decode enc dec -> (forall v, enc v <> []) ->
  exists bs,
  (* the encoder passes on [bs] *)
  (forall S A F E (C : bulk_consumer S byte F E) (M : machine A byte F E) R D s a k w a' n,
     lawful_consumer C M R D -> R s a k w -> m_feed M bs a = (a', n, None) ->
     exists s', accepts (encoder encode C) s vs s' /\ R s' a' 0 []) /\
  (* the decoder turns [bs] back into [vs] *)
  (forall S F E (P : bulk_producer S byte F E) R D s l k,
     lawful_producer P R D -> R s bs l k ->
     exists s1 s', emits (decoder decode P) s vs s1 /\
       p_produce (decoder decode P) s1 = Ret (s', report_last (map_err Producer l)) /\ D s').
Proof.
  intros V O encode decode enc dec vs L NE. exists (enc_all enc vs). split.
  - intros S A F E C M R D s a k w a' n LC HR HF. eapply encoder_accepts; [exact (codec_encode L)|exact LC|exact HR|exact HF].
  - intros S F E P R D s l k LP HR.
    destruct (decoder_decodes (codec_decode L) LP (decodes_all (codec_reads L) (codec_round_trips L) NE vs l) _ _ HR)
      as (s1 & s' & E1 & E2 & [HD|(xs' & o & E3 & _)]).
    + eauto.
    + destruct l; discriminate.
Qed.
Print Assumptions C48_round_trip.

(** [bs] is the concatenation of what encoding the values one by one gives. *)
Theorem C48_bytes :
  forall V (encode : encode_fn V) enc (vs : list V), lawful_encode encode enc ->
  exists s', accepts (encoder encode (into_vec_consumer x00)) into_vec_new vs s' /\
    into_vec_into_vec s' = concat (map enc vs).
Proof.
  intros V encode enc vs L.
  assert (HR0 : @iv_rel byte into_vec_new [] 0 []) by repeat constructor.
  edestruct (encoder_accepts L (@into_vec_lawful byte x00) vs) as (s' & E1 & HR); [exact HR0|apply collect_feed|].
  exists s'. split; auto. apply iv_rel_read in HR as [_ ->]. reflexivity.
Qed.
Print Assumptions C48_bytes.

(** If the byte consumer fails after [n] bytes, then so does the encoder, in the middle of the value that contains the
    byte [n]. *)
Theorem C48_encoder_fails :
  forall V (encode : encode_fn V) enc (vs : list V) S A F E (C : bulk_consumer S byte F E) (M : machine A byte F E) R D s a k w a' n e,
  lawful_encode encode enc -> lawful_consumer C M R D -> R s a k w -> m_feed M (concat (map enc vs)) a = (a', n, Some e) ->
  exists vs1 v vs2 s1 s', vs = vs1 ++ v :: vs2 /\ accepts (encoder encode C) s vs1 s1 /\
    c_consume (encoder encode C) v s1 = Ret (s', Err e) /\ D s' a' /\
    length (concat (map enc vs1)) <= n < length (concat (map enc (vs1 ++ [v]))).
Proof.
  intros V encode enc vs S A F E C M R D s a k w a' n e L LC HR HF. eapply encoder_fails; [exact L|exact LC|exact HR|exact HF].
Qed.
Print Assumptions C48_encoder_fails.

Example C48_example :
  (exists s, accepts (encoder opt_encode (test_consumer x00))
     (@test_consumer_build byte unit unit tt 10 (Some [2; 1]) None) [Some x07; None; Some x00] s /\
     test_consumer_consumed s = Ret [x01; x07; x00; x01; x00]) /\
  (exists s s', emits (decoder opt_decode test_producer)
     (@test_producer_build byte nat unit [x01; x07; x00; x01; x00] (Ok 5) (Some [1; 3]) (Some [true]))
     [Some x07; None; Some x00] s /\
     p_produce (decoder opt_decode test_producer) s = Ret (s', Ok (inr 5))).
Proof.
  split.
  - eexists. split; [repeat (econstructor; [vm_compute; reflexivity|]); constructor|vm_compute; reflexivity].
  - do 2 eexists. split; [repeat (econstructor; [vm_compute; reflexivity|]); constructor|vm_compute; reflexivity].
Qed.

(** The contract of [Encodable] does not exclude an empty encoding (of the only value of a type). Then the decoder
    finds none of the values that were encoded. *)
Theorem C48_empty_encoding_refuted :
  exists V O (encode : encode_fn V) (decode : decode_fn V O) enc dec (vs : list V) s s',
  lawful_codec encode decode enc dec /\ vs <> [] /\
  accepts (encoder encode (into_vec_consumer x00)) into_vec_new vs s /\
  p_produce (decoder decode from_slice_producer) (from_slice_new (into_vec_into_vec s)) = Ret (s', Ok (inr tt)).
Proof.
  exists unit, infallible, unit_encode, unit_decode, unit_enc, unit_dec, [tt; tt]. do 2 eexists.
  split; [exact unit_codec|]. split; [discriminate|].
  split; [repeat (econstructor; [vm_compute; reflexivity|]); constructor|vm_compute; reflexivity].
Qed.
Print Assumptions C48_empty_encoding_refuted.

(** *** C49 *)

(** The decoder takes the bytes [xs] apart into complete encodings [ys] of the emitted values and a rest [zs]: what it
    reports in the end depends on the rest only. *)
Theorem C49_decoder_outcome :
  forall V O (decode : decode_fn V O) dec S F E (P : bulk_producer S byte F E) R D s xs l k,
  lawful_decode decode dec -> reads_no_further dec -> (forall xs v n, dec xs = Parsed v n -> 1 <= n) ->
  lawful_producer P R D -> R s xs l k ->
  exists ys zs vs s1 s' last, xs = ys ++ zs /\ splits_into dec ys vs /\
    emits (decoder decode P) s vs s1 /\ p_produce (decoder decode P) s1 = Ret (s', report_last last) /\
    last = match zs with
           | [] => map_err Producer l
           | _ => match dec zs with
                  | Failed o _ => Err (Other o)
                  | _ => match l with Ok f => Err (UnexpectedEndOfInput f) | Err e => Err (Producer e) end
                  end
           end /\
    (zs <> [] -> forall v n, dec zs <> Parsed v n).
Proof.
  intros V O decode dec S F E P R D s xs l k L RD Hpos LP HR.
  destruct (decodes_total l RD Hpos xs) as (vs & last & HD).
  destruct (decodes_splits RD Hpos HD) as (ys & zs & E1 & E2 & E3).
  destruct (decoder_decodes L LP HD _ _ HR) as (s1 & s' & E4 & E5 & _).
  exists ys, zs, vs, s1, s', last. split; [exact E1|]. split; [exact E2|]. split; [exact E4|]. split; [exact E5|].
  inversion E3; subst.
  - split; [reflexivity|congruence].
  - destruct zs; [congruence|]. match goal with H : dec _ = _ |- _ => rewrite H end. split; [reflexivity|discriminate].
  - destruct zs; [congruence|]. match goal with H : dec _ = _ |- _ => rewrite H end. split; [|discriminate].
    destruct l; reflexivity.
Qed.
Print Assumptions C49_decoder_outcome.

(** The final value is emitted iff it comes after complete encodings. *)
Theorem C49_final_iff_boundary :
  forall V O (decode : decode_fn V O) dec S F E (P : bulk_producer S byte F E) R D s xs l k vs f,
  lawful_decode decode dec -> reads_no_further dec -> (forall xs v n, dec xs = Parsed v n -> 1 <= n) ->
  lawful_producer P R D -> R s xs l k ->
  ((exists s1 s', emits (decoder decode P) s vs s1 /\ p_produce (decoder decode P) s1 = Ret (s', Ok (inr f)))
   <-> l = Ok f /\ splits_into dec xs vs).
Proof.
  intros V O decode dec S F E P R D s xs l k vs f L RD Hpos LP HR. split.
  - intros (s1 & s' & H1 & H2).
    destruct (decodes_total l RD Hpos xs) as (us & last & HD).
    destruct (decoder_decodes L LP HD _ _ HR) as (s2 & s3 & E4 & E5 & _).
    assert (HE : vs = us /\ last = Ok f) by (exact (emits_last_det (Ok f) last H1 H2 E4 E5)).
    destruct HE as [<- ->]. destruct (decodes_splits RD Hpos HD) as (ys & zs & -> & E2 & E3).
    inversion E3; subst. rewrite app_nil_r. split; [|exact E2].
    destruct l; cbn in *; congruence.
  - intros [-> HS]. pose proof (splits_decodes RD (l := @Ok F E f) HS (decodes_end dec (Ok f))) as HD.
    rewrite !app_nil_r in HD. destruct (decoder_decodes L LP HD _ _ HR) as (s1 & s' & E4 & E5 & _). eauto.
Qed.
Print Assumptions C49_final_iff_boundary.

(** Truncation of the encodings of a sequence inside one of them. *)
Theorem C49_truncation :
  forall V O (encode : encode_fn V) (decode : decode_fn V O) enc dec (vs : list V) v m S F E (P : bulk_producer S byte F E) R D s l k,
  lawful_codec encode decode enc dec -> (forall v, enc v <> []) -> 0 < m < length (enc v) ->
  lawful_producer P R D -> R s (concat (map enc vs) ++ firstn m (enc v)) l k ->
  exists s1 s', emits (decoder decode P) s vs s1 /\
    p_produce (decoder decode P) s1 =
      Ret (s', Err (match l with Ok f => UnexpectedEndOfInput f | Err e => Producer e end)).
Proof.
  intros V O encode decode enc dec vs v m S F E P R D s l k L NE Hm LP HR.
  destruct (decoder_decodes (codec_decode L) LP (decodes_truncation (codec_reads L) (codec_round_trips L) NE vs v l Hm) _ _ HR)
    as (s1 & s' & E1 & E2 & _). eauto.
Qed.
Print Assumptions C49_truncation.

(** [slurp] has no influence on what is decoded. *)
Theorem C49_slurp :
  forall V O (decode : decode_fn V O) S F E (P : bulk_producer S byte F E) R D s xs l k,
  lawful_slurp P R D -> R s xs l k ->
  (exists s', p_slurp (decoder decode P) s = Ret (s', Ok tt) /\ R s' xs l k) \/
  (exists s' e, p_slurp (decoder decode P) s = Ret (s', Err (Producer e)) /\ xs = [] /\ l = Err e /\ D s').
Proof. intros V O decode S F E P R D s xs l k LS HR. eapply decoder_slurp_ok; [exact LS|exact HR]. Qed.
Print Assumptions C49_slurp.

Example C49_example :
  (exists s s', emits (decoder opt_decode test_producer)
     (@test_producer_build byte nat nat [x00; x01] (Ok 5) (Some [2]) None) [None] s /\
     p_produce (decoder opt_decode test_producer) s = Ret (s', Err (UnexpectedEndOfInput 5))) /\
  (exists s s', emits (decoder opt_decode test_producer)
     (@test_producer_build byte nat nat [x00; x01] (Err 6) (Some [2]) None) [None] s /\
     p_produce (decoder opt_decode test_producer) s = Ret (s', Err (Producer 6))) /\
  (exists s s', emits (decoder opt_decode test_producer)
     (@test_producer_build byte nat nat [x00; x09] (Ok 5) (Some [2]) None) [None] s /\
     p_produce (decoder opt_decode test_producer) s = Ret (s', Err (Other x09))) /\
  (forall xs v n, opt_dec xs = Parsed v n -> 1 <= n).
Proof.
  split; [|split; [|split; [|exact opt_positive]]].
  all: do 2 eexists; split; [repeat (econstructor; [vm_compute; reflexivity|]); constructor|vm_compute; reflexivity].
Qed.

(** *** C50 *)

Theorem C50_encoder_references :
  forall V RT (encode : RT -> encode_fn V) enc S A F E (C : bulk_consumer S byte F E) (M : machine A byte F E) R D
    (evs : list (rel_event RT V)) s r a k w,
  (forall r, lawful_encode (encode r) (enc r)) -> lawful_consumer C M R D -> R s a k w ->
  match m_feed M (concat (map (fun p => enc (fst p) (snd p)) (with_references r evs))) a with
  | (a', _, None) => exists s', drive_encoder (relative_encoder encode C) evs (mk_relative s r) =
        Ret (mk_relative s' (last_reference r evs), Ok tt) /\ R s' a' 0 []
  | (a', _, Some e) => exists s' r', drive_encoder (relative_encoder encode C) evs (mk_relative s r) =
        Ret (mk_relative s' r', Err e) /\ D s' a'
  end.
Proof. intros V RT encode enc S A F E C M R D evs s r a k w L LC HR. eapply drive_encoder_ok; [exact L|exact LC|exact HR]. Qed.
Print Assumptions C50_encoder_references.

Theorem C50_decoder_references :
  forall V O RT X (decode : RT -> decode_fn V O) dec S F E (P : bulk_producer S byte F E) R D
    (evs : list (rel_event RT X)) s r xs l k,
  (forall r, lawful_decode (decode r) (dec r)) -> lawful_producer P R D -> R s xs l k ->
  match rel_decodes dec r evs xs l with
  | (rest, vs, last) => exists s' r', drive_decoder (relative_decoder decode P) evs (mk_relative s r) =
        Ret (mk_relative s' r', (vs, last)) /\
      match last with
      | None => r' = last_reference r evs /\ exists k', R s' rest l k'
      | Some (Err (Other _)) => R s' rest l 0
      | Some _ => D s'
      end
  end.
Proof.
  intros V O RT X decode dec S F E P R D evs s r xs l k L LP HR. eapply drive_decoder_ok; [exact L|exact LP|exact HR].
Qed.
Print Assumptions C50_decoder_references.

(** The same changes on both sides: what was encoded is decoded, and the bytes that follow are left. *)
Theorem C50_lockstep_round_trip :
  forall V O RT (encode : RT -> encode_fn V) (decode : RT -> decode_fn V O) enc dec (evs : list (rel_event RT V)) r,
  (forall r, lawful_codec (encode r) (decode r) (enc r) (dec r)) -> (forall r v, enc r v <> []) ->
  exists bs,
  (exists s', drive_encoder (relative_encoder encode (into_vec_consumer x00)) evs (mk_relative into_vec_new r) = Ret (s', Ok tt) /\
     into_vec_into_vec (rel_inner s') = bs) /\
  (forall S F E (P : bulk_producer S byte F E) R D s ys l k, lawful_producer P R D -> R s (bs ++ ys) l k ->
     exists s' k', drive_decoder (relative_decoder decode P) evs (mk_relative s r) =
       Ret (mk_relative s' (last_reference r evs), (map snd (with_references r evs), None)) /\ R s' ys l k').
Proof.
  intros V O RT encode decode enc dec evs r L NE.
  exists (concat (map (fun p => enc (fst p) (snd p)) (with_references r evs))). split.
  - pose proof (drive_encoder_ok encode enc (fun r => codec_encode (L r)) (@into_vec_lawful byte x00) evs
      into_vec_new r [] 0 [] ltac:(repeat constructor)) as H.
    rewrite collect_feed in H. destruct H as (s' & E1 & HR). eexists; split; [exact E1|].
    apply iv_rel_read in HR as [_ E2]. exact E2.
  - intros S F E P R D s ys l k LP HR.
    pose proof (drive_decoder_ok decode dec (fun r => codec_decode (L r)) LP evs _ r _ _ _ HR) as H.
    rewrite (rel_decodes_enc enc dec (fun r => codec_reads (L r)) (fun r => codec_round_trips (L r)) NE evs r ys l) in H.
    destruct H as (s' & r' & E1 & -> & k' & HR'). eauto.
Qed.
Print Assumptions C50_lockstep_round_trip.

(** The unit reference. *)
Theorem C50_unit_reference :
  forall V O (encode : encode_fn V) (decode : decode_fn V O) S F E
    (C : bulk_consumer S byte F E) (P : bulk_producer S byte F E) v f s,
  c_consume (relative_encoder (unit_relative_encode encode) C) v (mk_relative s tt) =
    bind (c_consume (encoder encode C) v s) (fun p => Ret (mk_relative (fst p) tt, snd p)) /\
  c_close (relative_encoder (unit_relative_encode encode) C) f (mk_relative s tt) =
    bind (c_close (encoder encode C) f s) (fun p => Ret (mk_relative (fst p) tt, snd p)) /\
  c_flush (relative_encoder (unit_relative_encode encode) C) (mk_relative s tt) =
    bind (c_flush (encoder encode C) s) (fun p => Ret (mk_relative (fst p) tt, snd p)) /\
  p_produce (relative_decoder (unit_relative_decode decode) P) (mk_relative s tt) =
    bind (p_produce (decoder decode P) s) (fun p => Ret (mk_relative (fst p) tt, snd p)) /\
  p_slurp (relative_decoder (unit_relative_decode decode) P) (mk_relative s tt) =
    bind (p_slurp (decoder decode P) s) (fun p => Ret (mk_relative (fst p) tt, snd p)).
Proof.
  intros V O encode decode S F E C P v f s.
  assert (H : forall X (o : outcome (S * X)), on_inner o (mk_relative s tt) = bind o (fun p => Ret (mk_relative (fst p) tt, snd p))).
  { intros X [[? ?]| |]; reflexivity. }
  splits; apply H.
Qed.
Print Assumptions C50_unit_reference.

Definition ex_events : list (rel_event bool (num u16)) :=
  [RelItem (num_of u16 1); RelSet true; RelItem (num_of u16 2); RelItem (num_of u16 3); RelSet false; RelItem (num_of u16 4)].

Example C50_example :
  (exists s, drive_encoder (relative_encoder rel_encode (into_vec_consumer x00)) ex_events (mk_relative into_vec_new false) = Ret (s, Ok tt) /\
     into_vec_into_vec (rel_inner s) = [x01; x00; x00; x02; x00; x03; x04; x00]) /\
  (exists s vs, drive_decoder (relative_decoder rel_decode test_producer) ex_events
     (mk_relative (@test_producer_build byte nat nat [x01; x00; x00; x02; x00; x03; x04; x00] (Ok 5) (Some [3]) None) false) =
       Ret (s, (vs, None)) /\ map (@num_val u16) vs = [1; 2; 3; 4]%Z /\ relative_to s = false) /\
  (forall r, lawful_codec (rel_encode r) (rel_decode r) (rel_enc r) (rel_dec r)) /\ (forall r v, rel_enc r v <> []).
Proof.
  split; [|split; [|split; [exact rel_codec|exact rel_nonempty]]].
  - eexists. split; vm_compute; reflexivity.
  - do 2 eexists. split; [vm_compute; reflexivity|]. split; vm_compute; reflexivity.
Qed.

(** *** C53 *)

Theorem C53_conversions :
  forall (F E A B : Type) (f : A -> B) (fin : F) (e : E) (o : A) n,
  (forall g, g = map_other_from f \/ g = (fun err => map_other err f) ->
     g (@UnexpectedEndOfInput F E A fin) = UnexpectedEndOfInput fin /\
     g (@Producer F E A e) = Producer e /\ g (Other o) = Other (f o)) /\
  decode_error_from e = @Producer F E A e /\
  decode_error_from_at_least (mk_pale n (inl fin)) = @UnexpectedEndOfInput F E A fin /\
  decode_error_from_at_least (mk_pale n (inr e)) = @Producer F E A e.
Proof. intros F E A B f fin e o n. splits; auto; intros g [->| ->]; auto. Qed.
Print Assumptions C53_conversions.

(** The platforms of Rust. *)
Definition pointer_width (ptr : Z) : Prop := (ptr = 16 \/ ptr = 32 \/ ptr = 64)%Z.
Definition fits_usize (ptr n : Z) : Prop := (0 <= n < 2 ^ ptr)%Z.
Definition fits_isize (ptr n : Z) : Prop := (- 2 ^ (ptr - 1) <= n < 2 ^ (ptr - 1))%Z.

(** What a conversion is supposed to return. *)
Definition converts {F E} (fits : Prop) (r : res Z (decode_error F E blame)) (n : Z) : Prop :=
  (fits /\ r = Ok n) \/ (~ fits /\ r = Err (Other OurFault)).

Theorem C53_blame_unsigned :
  forall (F E : Type) ptr n, pointer_width ptr ->
  (in_range u64 n = true -> @converts F E (fits_usize ptr n) (u64_to_usize ptr n) n) /\
  (in_range u32 n = true -> @converts F E (fits_usize ptr n) (u32_to_usize ptr n) n) /\
  (in_range u16 n = true -> @converts F E (fits_usize ptr n) (u16_to_usize n) n).
Proof.
  intros F E ptr n Hp.
  assert (HT : @converts F E (fits_usize ptr n) (map_err (fun _ => Other OurFault) (usize_try_from ptr n)) n).
  { unfold converts, fits_usize, usize_try_from.
    destruct ((0 <=? n) && (n <? 2 ^ ptr))%Z eqn:E1; [left|right]; (split; [|reflexivity]).
    - apply andb_true_iff in E1. lia.
    - apply andb_false_iff in E1. lia. }
  split; [intros _; exact HT|]. split; [intros _; exact HT|]. intros H. left. split; [|reflexivity].
  unfold in_range in H. apply andb_true_iff in H. rewrite !Z.leb_le in H. change (MIN u16) with 0%Z in H. change (MAX u16) with 65535%Z in H.
  unfold fits_usize. destruct Hp as [->|[->| ->]]; [change (2 ^ 16)%Z with 65536%Z|change (2 ^ 32)%Z with 4294967296%Z|change (2 ^ 64)%Z with 18446744073709551616%Z]; lia.
Qed.
Print Assumptions C53_blame_unsigned.

Theorem C53_blame_signed :
  forall (F E : Type) ptr n, pointer_width ptr ->
  (in_range i64 n = true -> @converts F E (fits_isize ptr n) (i64_to_usize ptr n) n) /\
  (in_range i32 n = true -> @converts F E (fits_isize ptr n) (i32_to_usize ptr n) n) /\
  (in_range i16 n = true -> @converts F E (fits_isize ptr n) (i16_to_usize n) n).
Proof.
  intros F E ptr n Hp.
  assert (HT : @converts F E (fits_isize ptr n) (map_err (fun _ => Other OurFault) (isize_try_from ptr n)) n).
  { unfold converts, fits_isize, isize_try_from.
    destruct ((- 2 ^ (ptr - 1) <=? n) && (n <? 2 ^ (ptr - 1)))%Z eqn:E1; [left|right]; (split; [|reflexivity]).
    - apply andb_true_iff in E1. lia.
    - apply andb_false_iff in E1. lia. }
  split; [intros _; exact HT|]. split; [intros _; exact HT|]. intros H. left. split; [|reflexivity].
  unfold in_range in H. apply andb_true_iff in H. rewrite !Z.leb_le in H. change (MIN i16) with (-32768)%Z in H. change (MAX i16) with 32767%Z in H.
  unfold fits_isize. destruct Hp as [->|[->| ->]];
    [change (2 ^ (16 - 1))%Z with 32768%Z|change (2 ^ (32 - 1))%Z with 2147483648%Z|change (2 ^ (64 - 1))%Z with 9223372036854775808%Z]; lia.
Qed.
Print Assumptions C53_blame_signed.

Example C53_example :
  u64_to_usize 32 (2 ^ 32)%Z = Err (@Other unit unit blame OurFault) /\
  u64_to_usize 64 (2 ^ 32)%Z = Ok (2 ^ 32)%Z :> res Z (decode_error unit unit blame) /\
  i32_to_usize 16 (-32769)%Z = Err (@Other unit unit blame OurFault) /\
  i32_to_usize 16 (-32768)%Z = Ok (-32768)%Z :> res Z (decode_error unit unit blame) /\
  in_range u64 (2 ^ 32)%Z = true /\ in_range i32 (-32769)%Z = true /\ pointer_width 16.
Proof. unfold pointer_width. splits; auto. Qed.

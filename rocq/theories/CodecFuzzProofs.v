(** Proofs about the fuzz targets for codecs. *)
From Coq Require Import Bool List Arith Lia.
From Coq.Init Require Import Byte.
From Coq.Strings Require Byte.
From Verif Require Import Prelude ListFacts Traits Contracts ContractFacts BasicModel BasicSpec BasicProofs CodecModel
  CodecSpec CodecProofs ProptestModel ProptestProofs CodecFuzzModel CodecFuzzSpec.
Import ListNotations.
Set Implicit Arguments.

(** ** Encoding a single value *)

(** The encoder for one value, as an encoder for the unit type. *)
Definition encode_const {V} (encode : encode_fn V) (v : V) : encode_fn unit := fun S F E C _ s => encode S F E C v s.

Lemma encodes_as_const : forall V (encode : encode_fn V) v bytes, encodes_as encode v bytes ->
  lawful_encode (encode_const encode v) (fun _ => bytes).
Proof. intros V encode v bytes H S A F E C M R D L [] s a k w HR. exact (H _ _ _ _ _ _ _ _ L _ _ _ _ HR). Qed.

Lemma lawful_encodes_as : forall V (encode : encode_fn V) enc, lawful_encode encode enc <->
  forall v, encodes_as encode v (enc v).
Proof.
  intros V encode enc. split.
  - intros H v S A F E C M R D L s a k w HR. exact (H _ _ _ _ _ _ _ _ L v _ _ _ _ HR).
  - intros H S A F E C M R D L v s a k w HR. exact (H v _ _ _ _ _ _ _ _ L _ _ _ _ HR).
Qed.

Lemma encodes_into_vec : forall V (encode : encode_fn V) v bytes, encodes_as encode v bytes ->
  encode_into_vec encode v = Ret bytes.
Proof. intros V encode v bytes H. exact (encode_into_vec_ok (encodes_as_const H) tt). Qed.

(** What [FromSlice] has produced, after decoding from it. *)
Lemma decode_from_slice_produced : forall V O (decode : decode_fn V O) dec, lawful_decode decode dec ->
  forall xs, exists s', decode _ _ _ from_slice_producer (from_slice_new xs) = Ret (s', parse_result (dec xs)) /\
    match dec xs with
    | Parsed _ n => from_slice_produced_so_far s' = Ret (firstn n xs)
    | _ => True
    end.
Proof.
  intros V O decode dec L xs.
  specialize (L _ _ _ _ _ _ (from_slice_keeps xs) (from_slice_new xs) xs (Ok tt) 0 (conj (fs_rel_new xs) eq_refl)).
  destruct (dec xs) as [v n|o n|] eqn:Ed; destruct L as (s' & E1 & H); exists s'; split; auto.
  destruct H as [HR HS]. destruct (fs_rel_accessors HR) as (done & -> & _ & Hl & Hd). rewrite HS in Hd. f_equal.
  apply (app_inv_tail (skipn n xs)). rewrite Hd, firstn_skipn. reflexivity.
Qed.

Section Assertions.
  Context {V O OC : Type} (encode : encode_fn V) (decode : decode_fn V O) (decode_canonic : decode_fn V OC)
    (len_of_encoding : V -> nat) (dec : list byte -> parse V O) (decc : list byte -> parse V OC).
  Context (eqV : V -> V -> bool) (eqO : O -> O -> bool)
    (HV : forall v w, eqV v w = true <-> v = w) (HO : forall o o', eqO o o' = true <-> o = o').

  Lemma check_consumer : forall t e c1 c2, encodes_as encode t e -> generated_consumer c1 -> generated_consumer c2 ->
    assert_encoding_does_not_care_about_consumer_details encode t c1 c2 = Ret tt.
  Proof.
    intros t e c1 c2 H (n1 & sizes1 & pattern1 & -> & H1) (n2 & sizes2 & pattern2 & -> & H2).
    exact (assert_consumer_ok (encodes_as_const H) tt n1 n2 sizes1 sizes2 pattern1 pattern2 H1 H2).
  Qed.

  Lemma check_distinct : forall t1 e1 t2 e2, encodes_as encode t1 e1 -> encodes_as encode t2 e2 ->
    assert_distinct_values_produce_distinct_encodings encode eqV t1 t2 = Ret tt <-> (t1 <> t2 -> e1 <> e2).
  Proof.
    intros t1 e1 t2 e2 H1 H2. unfold assert_distinct_values_produce_distinct_encodings.
    rewrite (encodes_into_vec H1), (encodes_into_vec H2). cbn [bind].
    destruct (eqV t1 t2) eqn:Ev; cbn [negb].
    - apply HV in Ev. split; [intros _ Hn; now elim Hn|auto].
    - assert (t1 <> t2) by (intros H; apply HV in H; congruence).
      destruct (bytes_eqb e1 e2) eqn:Eb.
      + apply bytes_eqb_iff in Eb. split; [discriminate|]. intros H3. now elim (H3 H).
      + split; auto. intros _ _ H3. apply bytes_eqb_iff in H3. congruence.
  Qed.

  Lemma check_prefix : forall t1 e1 t2 e2, encodes_as encode t1 e1 -> encodes_as encode t2 e2 ->
    assert_encodings_are_prefix_free encode eqV t1 t2 = Ret tt <-> (t1 <> t2 -> forall ys, e2 <> e1 ++ ys /\ e1 <> e2 ++ ys).
  Proof.
    intros t1 e1 t2 e2 H1 H2. unfold assert_encodings_are_prefix_free.
    rewrite (encodes_into_vec H1), (encodes_into_vec H2). cbn [bind].
    destruct (eqV t1 t2) eqn:Ev; cbn [negb].
    - apply HV in Ev. split; [intros _ Hn; now elim Hn|auto].
    - assert (Hn : t1 <> t2) by (intros H; apply HV in H; congruence).
      destruct (starts_with e2 e1) eqn:E1; [|destruct (starts_with e1 e2) eqn:E2].
      + apply starts_with_iff in E1 as (zs & E1). split; [discriminate|]. intros H3. now destruct (H3 Hn zs).
      + apply starts_with_iff in E2 as (zs & E2). split; [discriminate|]. intros H3. now destruct (H3 Hn zs).
      + split; auto. intros _ _ ys. split; intros H3.
        * rewrite (proj2 (starts_with_iff _ _) (ex_intro _ ys H3)) in E1. discriminate.
        * rewrite (proj2 (starts_with_iff _ _) (ex_intro _ ys H3)) in E2. discriminate.
  Qed.

  Lemma check_excessive : lawful_decode decode dec -> forall xs,
    assert_decoding_reads_no_excessive_bytes decode xs = Ret tt <->
    (forall v n, dec xs = Parsed v n -> 1 < length (firstn n xs) -> dec (removelast (firstn n xs)) = Truncated).
  Proof.
    intros LD xs. unfold assert_decoding_reads_no_excessive_bytes.
    destruct (decode_from_slice_produced LD xs) as (s' & -> & H). cbn [bind].
    destruct (dec xs) as [v n|o n|] eqn:Ed; cbn [parse_result]; try (split; [discriminate|reflexivity]).
    rewrite H. cbn [bind]. set (p := firstn n xs) in *.
    destruct (Nat.ltb_spec 1 (length p)) as [Hl|Hl].
    2: { split; auto. intros _ v' n' Hv. injection Hv as <- <-. fold p. lia. }
    rewrite csub_ok by lia. cbn [bind]. rewrite slice_to_ok by lia. cbn [bind].
    assert (Hp : firstn (length p - 1) p = removelast p) by (rewrite removelast_firstn_len; f_equal; lia).
    rewrite Hp. destruct (decode_from_slice_produced LD (removelast p)) as (s2 & -> & _). cbn [bind].
    split.
    - intros H1 v' n' Hv _. injection Hv as <- <-. fold p.
      destruct (dec (removelast p)); cbn [parse_result] in H1; auto; discriminate.
    - intros H1. specialize (H1 v n eq_refl Hl). fold p in H1. rewrite H1. reflexivity.
  Qed.

  Lemma check_round_trip : lawful_decode decode dec -> forall t e, encodes_as encode t e ->
    assert_encoding_then_decoding_yields_the_original encode decode eqV t = Ret tt <-> exists n, dec e = Parsed t n.
  Proof.
    intros LD t e H. unfold assert_encoding_then_decoding_yields_the_original.
    rewrite (encodes_into_vec H). cbn [bind]. rewrite (decode_from_slice_ok LD). cbn [bind].
    destruct (dec e) as [v n|o n|] eqn:Ed; cbn [parse_result].
    - destruct (eqV t v) eqn:Ev; cbn [negb]; split; try discriminate; auto.
      + apply HV in Ev. subst. eauto.
      + intros (m & Hm). injection Hm as -> ->. rewrite (proj2 (HV t t) eq_refl) in Ev. discriminate.
    - split; [discriminate|]. intros (m & Hm). discriminate.
    - split; [discriminate|]. intros (m & Hm). discriminate.
  Qed.

  Lemma seq_iff : forall (o1 o2 : outcome unit), (let* _ := o1 in o2) = Ret tt <-> o1 = Ret tt /\ o2 = Ret tt.
  Proof. intros [[]| |] o2; cbn [bind]; split; intros H; [auto|apply H|discriminate|now destruct H|discriminate|now destruct H]. Qed.

  Lemma check_basic : lawful_decode decode dec -> forall d e1 e2,
    encodes_as encode (data_t1 d) e1 -> encodes_as encode (data_t2 d) e2 ->
    generated_consumer (data_c1 d) -> generated_consumer (data_c2 d) ->
    Forall (fun n => 1 <= n) (data_exposed_items_sizes1 d) -> Forall (fun n => 1 <= n) (data_exposed_items_sizes2 d) ->
    data_basic_invariants encode decode eqV eqO d = Ret tt <->
    basic_verdict dec (data_t1 d) e1 (data_t2 d) e2 (data_potential_encoding1 d).
  Proof.
    intros LD d e1 e2 H1 H2 G1 G2 S1 S2. unfold data_basic_invariants, assert_basic_invariants, basic_verdict.
    rewrite (check_consumer H1 G1 G2). cbn [bind]. rewrite !seq_iff.
    rewrite (check_distinct H1 H2), (check_prefix H1 H2), (check_excessive LD), (check_round_trip LD H1).
    rewrite (assert_producer_ok eqV eqO HV HO LD) by assumption.
    split; [intros (_ & Hp & _ & Hx & Hr); exact (conj Hp (conj Hx Hr))|]. intros (Hp & Hx & Hr). refine (conj _ (conj Hp (conj eq_refl (conj Hx Hr)))).
    intros Hn He. destruct (Hp Hn []) as [_ Hp2]. apply Hp2. now rewrite app_nil_r.
  Qed.

  Lemma check_known_size : forall t e, encodes_as encode t e ->
    assert_known_size_invariants encode len_of_encoding t = Ret tt <-> len_of_encoding t = length e.
  Proof.
    intros t e H. exact (assert_known_size_ok (fun _ => len_of_encoding t) (encodes_as_const H) tt).
  Qed.

  Lemma check_canonic : lawful_decode decode dec -> lawful_decode decode_canonic decc ->
    forall enc xs ys, (forall v n, decc xs = Parsed v n -> encodes_as encode v (enc v)) ->
    assert_canonic_invariants encode decode decode_canonic eqV xs ys = Ret tt <-> canonic_verdict enc dec decc xs ys.
  Proof.
    intros LD LC enc xs ys HE. unfold assert_canonic_invariants, canonic_verdict. rewrite !seq_iff.
    unfold assert_distinct_encodings_do_not_canonically_decode_to_equal_values,
      assert_canonic_decoding_specialises_regular_decoding, assert_canonic_decoding_roundtrips.
    destruct (decode_from_slice_produced LC xs) as (s1 & E1 & H1).
    destruct (decode_from_slice_produced LC ys) as (s2 & E2 & H2).
    rewrite E1. cbn [bind]. rewrite E2. cbn [bind]. rewrite (decode_from_slice_ok LC), (decode_from_slice_ok LD).
    cbn [bind].
    destruct (decc xs) as [v n|o n|] eqn:Ex; cbn [parse_result]; try (split; [discriminate|auto]).
    rewrite (encodes_into_vec (HE _ _ eq_refl)), H1. cbn [bind].
    assert (H3 : (match parse_result (decc ys) with
        | Ok t2 => let* produced2 := from_slice_produced_so_far s2 in
            if negb (bytes_eqb (firstn n xs) produced2) && eqV v t2 then Panic else Ret tt
        | Err _ => Ret tt
        end = Ret tt) <-> forall m, decc ys = Parsed v m -> firstn m ys = firstn n xs).
    { destruct (decc ys) as [v' m|o m|] eqn:Ey; cbn [parse_result]; try (split; [discriminate|auto]).
      rewrite H2. cbn [bind]. destruct (bytes_eqb (firstn n xs) (firstn m ys)) eqn:Eb; cbn [negb andb].
      - apply bytes_eqb_iff in Eb. split; auto. intros _ m' Hm. injection Hm as -> ->. auto.
      - destruct (eqV v v') eqn:Ev.
        + apply HV in Ev. subst v'. split; [discriminate|]. intros H. rewrite (H m eq_refl), (proj2 (bytes_eqb_iff _ _) eq_refl) in Eb. discriminate.
        + split; auto. intros _ m' Hm. injection Hm as -> ->. rewrite (proj2 (HV v v) eq_refl) in Ev. discriminate. }
    assert (H4 : (match parse_result (dec xs) with
        | Ok t_general => if negb (eqV v t_general) then Panic else Ret tt
        | Err _ => Panic
        end = Ret tt) <-> exists m, dec xs = Parsed v m).
    { destruct (dec xs) as [v' m|o m|] eqn:Ey; cbn [parse_result]; try (split; [discriminate|intros (? & H); discriminate]).
      destruct (eqV v v') eqn:Ev; cbn [negb].
      - apply HV in Ev. subst v'. split; eauto.
      - split; [discriminate|]. intros (m' & Hm). injection Hm as -> ->. rewrite (proj2 (HV v v) eq_refl) in Ev. discriminate. }
    assert (H5 : (if negb (bytes_eqb (firstn n xs) (enc v)) then Panic else Ret tt) = Ret tt <-> enc v = firstn n xs).
    { destruct (bytes_eqb (firstn n xs) (enc v)) eqn:Eb; cbn [negb].
      - apply bytes_eqb_iff in Eb. split; auto.
      - split; [discriminate|]. intros H. rewrite H, (proj2 (bytes_eqb_iff _ _) eq_refl) in Eb. discriminate. }
    rewrite H3, H4, H5. split.
    - intros (A1 & A2 & A3) v' n' Hv. injection Hv as <- <-. auto.
    - intros H. destruct (H v n eq_refl) as (A1 & A2 & A3). auto.
  Qed.

  (** Lawful codecs satisfy what is checked. *)
  Lemma verdict_basic_on : forall ok enc, lawful_codec_on ok encode decode enc dec ->
    forall t1 t2 xs, ok t1 -> ok t2 -> basic_verdict dec t1 (enc t1) t2 (enc t2) xs.
  Proof.
    intros ok enc L t1 t2 xs O1 O2.
    pose proof (on_round_trips L _ O1) as R1. pose proof (on_round_trips L _ O2) as R2.
    assert (HP : forall v w ys, dec v = Parsed w (length v) -> dec (v ++ ys) = Parsed w (length v)).
    { intros v w ys Hv. destruct (proj1 (on_reads L) _ _ _ Hv) as [_ H]. specialize (H ys). now rewrite firstn_all in H. }
    split; [|split].
    - intros Hn ys. split; intros He.
      + rewrite He, (HP _ _ _ R1) in R2. injection R2 as Hv _. contradiction.
      + rewrite He, (HP _ _ _ R2) in R1. injection R1 as Hv _. congruence.
    - intros v n Hv Hl. rewrite removelast_firstn_len, firstn_firstn. rewrite firstn_length in Hl.
      rewrite Nat.min_l by (rewrite firstn_length; lia). eapply dec_prefix_truncated; [apply (on_reads L)|exact Hv|rewrite firstn_length; lia].
    - eauto.
  Qed.

  Lemma verdict_canonic_on : forall enc, canonic enc dec decc -> forall xs ys, canonic_verdict enc dec decc xs ys.
  Proof.
    intros enc HC xs ys v n Hv. destruct (HC _ _ _ Hv) as [Hd He]. splits; eauto.
    intros m Hm. destruct (HC _ _ _ Hm) as [_ He2]. congruence.
  Qed.
End Assertions.

Lemma lawful_codec_on_all : forall V O (encode : encode_fn V) (decode : decode_fn V O) enc dec,
  lawful_codec encode decode enc dec -> lawful_codec_on (fun _ => True) encode decode enc dec.
Proof.
  intros V O encode decode enc dec L. constructor.
  - intros v _. apply lawful_encodes_as. apply (codec_encode L).
  - apply (codec_decode L).
  - apply (codec_reads L).
  - intros v _. apply (codec_round_trips L).
Qed.

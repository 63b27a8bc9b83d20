(** Proofs about the assertions of the property tests. *)
From Coq Require Import Bool List Arith Lia.
From Coq.Init Require Import Byte.
From Coq.Strings Require Byte.
From Verif Require Import Prelude ListFacts Traits Contracts ContractFacts BasicModel BasicSpec BasicProofs CodecModel
  CodecSpec CodecProofs ProptestModel.
Import ListNotations.
Set Implicit Arguments.

Lemma bytes_eqb_iff : forall xs ys, bytes_eqb xs ys = true <-> xs = ys.
Proof.
  induction xs as [|x xs IH]; destruct ys as [|y ys]; cbn; split; intros H; try discriminate; auto.
  - apply andb_true_iff in H as [H1 H2]. apply Byte.byte_dec_bl in H1. apply IH in H2. congruence.
  - injection H as -> ->. apply andb_true_iff. split; [apply Byte.byte_dec_lb; reflexivity|now apply IH].
Qed.

Lemma starts_with_iff : forall ys xs, starts_with xs ys = true <-> exists zs, xs = ys ++ zs.
Proof.
  induction ys as [|y ys IH]; intros xs; cbn.
  - destruct xs; split; intros; eauto.
  - destruct xs as [|x xs]; split; intros H; try discriminate.
    + destruct H as (zs & H). discriminate.
    + apply andb_true_iff in H as [H1 H2]. apply Byte.byte_dec_bl in H1. apply IH in H2 as (zs & ->). exists zs. now subst.
    + destruct H as (zs & H). injection H as -> ->. apply andb_true_iff. split; [apply Byte.byte_dec_lb; reflexivity|].
      apply IH. eauto.
Qed.

(** ** FromSlice keeps its slice *)

Lemma lawful_producer_with : forall S T F E (P : bulk_producer S T F E) R D (I : S -> Prop),
  lawful_producer_core P R D -> p_bulk_produce P = default_bulk_produce (p_expose P) (p_consider P) ->
  (forall s s' r, I s -> p_produce P s = Ret (s', r) -> I s') ->
  (forall s s' r, I s -> p_expose P s = Ret (s', r) -> I s') ->
  (forall n s s' r, I s -> p_consider P n s = Ret (s', r) -> I s') ->
  lawful_producer P (fun s xs l k => R s xs l k /\ I s) (fun s => D s /\ I s).
Proof.
  intros S T F E P R D I L HB Hp He Hc. apply default_lawful_producer; [|exact HB]. constructor.
  - intros s xs l k [H _]. exact (lp_wf L H).
  - intros s xs l k [H HI]. split; auto. exact (lp_forget L H).
  - intros s x xs l k [H HI]. destruct (lp_produce L H) as (s' & E1 & HR). exists s'. eauto 6.
  - intros s l k [H HI]. destruct (lp_produce_last L H) as (s' & E1 & HR). exists s'. eauto 6.
  - intros s xs l k [H HI] Hne. destruct (lp_expose L H Hne) as (s' & ys & rest & E1 & H2 & H3 & HR).
    exists s', ys, rest. eauto 8.
  - intros s l k [H HI]. destruct (lp_expose_last L H) as (s' & E1 & HR). exists s'. eauto 6.
  - intros s xs l k n [H HI] Hk Hn. destruct (lp_consider L n H Hk Hn) as (s' & E1 & HR). exists s'. eauto 6.
Qed.

Lemma from_slice_keeps : forall T (l0 : list T),
  lawful_producer (@from_slice_producer T) (fun s xs l k => fs_rel s xs l k /\ fs_slice s = l0) (fun s => fs_end s /\ fs_slice s = l0).
Proof.
  intros T l0. apply lawful_producer_with with (I := fun s => fs_slice s = l0).
  - apply from_slice_core.
  - reflexivity.
  - intros s s' r HI. cbn. unfold from_slice_produce. destruct (_ =? _).
    + intros H. injection H as <- <-. exact HI.
    + destruct (index _ _); cbn [bind]; intros H; try discriminate. injection H as <- <-. exact HI.
  - intros s s' r HI. cbn. unfold from_slice_expose. destruct (slice_from _ _) as [[|x l]| |]; cbn [bind]; intros H; try discriminate;
      injection H as <- <-; exact HI.
  - intros n s s' r HI. cbn. intros H. injection H as <- <-. exact HI.
Qed.

(** Decoding from a slice, and what has been produced then. *)
Lemma decode_from_slice_state : forall V O (decode : decode_fn V O) dec, lawful_decode decode dec -> reads_no_further dec ->
  forall xs, exists s', decode _ _ _ from_slice_producer (from_slice_new xs) = Ret (s', parse_result (dec xs)) /\
    match dec xs with
    | Parsed _ n => from_slice_produced_so_far s' = Ret (firstn n xs)
    | _ => True
    end.
Proof.
  intros V O decode dec L RD xs.
  specialize (L _ _ _ _ _ _ (from_slice_keeps xs) (from_slice_new xs) xs (Ok tt) 0 (conj (fs_rel_new xs) eq_refl)).
  destruct (dec xs) as [v n|o n|] eqn:Ed; destruct L as (s' & E1 & H); exists s'; split; auto.
  destruct H as [HR HS]. destruct (fs_rel_accessors HR) as (done & -> & _ & Hl & Hd). rewrite HS in Hd.
  destruct RD as [RD _]. destruct (RD _ _ _ Ed) as [Hn _].
  assert (Hln : length done = n).
  { apply (f_equal (@length _)) in Hd. rewrite app_length, skipn_length in Hd. lia. }
  rewrite <- Hd at 1. rewrite firstn_app, <- Hln, firstn_all, Nat.sub_diag, firstn_O, app_nil_r. reflexivity.
Qed.

Section Assertions.
  Context {V O OC : Type} (encode : encode_fn V) (decode : decode_fn V O) (decode_canonic : decode_fn V OC)
    (len_of_encoding : V -> nat) (enc : V -> list byte) (dec : list byte -> parse V O) (decc : list byte -> parse V OC).
  Context (eqV : V -> V -> bool) (eqO : O -> O -> bool)
    (HV : forall v w, eqV v w = true <-> v = w) (HO : forall o o', eqO o o' = true <-> o = o').

  Lemma eqV_refl : forall v, eqV v v = true.
  Proof. intros v. now apply HV. Qed.

  Definition nonzero (sizes : list nat) : Prop := Forall (fun n => 1 <= n) sizes.
  Definition opt_nonzero (sizes : option (list nat)) : Prop :=
    match sizes with Some l => nonzero l | None => True end.

  Lemma assert_consumer_ok : lawful_encode encode enc ->
    forall t n1 n2 sizes1 sizes2 pattern1 pattern2, opt_nonzero sizes1 -> opt_nonzero sizes2 ->
    assert_encoding_does_not_care_about_consumer_details encode t
      (test_consumer_build tt n1 sizes1 pattern1) (test_consumer_build tt n2 sizes2 pattern2) = Ret tt.
  Proof.
    intros LE t n1 n2 sizes1 sizes2 pattern1 pattern2 H1 H2. unfold assert_encoding_does_not_care_about_consumer_details.
    destruct (encode_into_test_consumer LE unit tt n1 sizes1 pattern1 t H1) as (s1 & E1 & C1).
    destruct (encode_into_test_consumer LE unit tt n2 sizes2 pattern2 t H2) as (s2 & E2 & C2).
    rewrite E1. cbn [bind]. rewrite E2. cbn [bind]. rewrite C1, C2. cbn [bind].
    rewrite !slice_to_ok by lia. cbn [bind]. rewrite !firstn_firstn, !firstn_length.
    replace (Nat.min (Nat.min (Nat.min n1 (length (enc t))) (Nat.min n2 (length (enc t)))) n2)
      with (Nat.min (Nat.min (Nat.min n1 (length (enc t))) (Nat.min n2 (length (enc t)))) n1) by lia.
    unfold assert. rewrite (proj2 (bytes_eqb_iff _ _) eq_refl). reflexivity.
  Qed.

  Lemma assert_distinct_ok : lawful_encode encode enc ->
    forall t1 t2, assert_distinct_values_produce_distinct_encodings encode eqV t1 t2 = Ret tt <-> (enc t1 = enc t2 -> t1 = t2).
  Proof.
    intros LE t1 t2. unfold assert_distinct_values_produce_distinct_encodings. rewrite !(encode_into_vec_ok LE). cbn [bind].
    destruct (eqV t1 t2) eqn:Ev; cbn [negb].
    - apply HV in Ev. split; auto.
    - assert (t1 <> t2) by (intros H; apply HV in H; congruence).
      destruct (bytes_eqb (enc t1) (enc t2)) eqn:Eb.
      + apply bytes_eqb_iff in Eb. split; [discriminate|]. intros H1. elim H. auto.
      + split; auto. intros _ H1. apply bytes_eqb_iff in H1. congruence.
  Qed.

  Lemma assert_prefix_free_ok : lawful_encode encode enc ->
    forall t1 t2, assert_encodings_are_prefix_free encode eqV t1 t2 = Ret tt <->
      (forall ys, enc t1 = enc t2 ++ ys \/ enc t2 = enc t1 ++ ys -> t1 = t2).
  Proof.
    intros LE t1 t2. unfold assert_encodings_are_prefix_free. rewrite !(encode_into_vec_ok LE). cbn [bind].
    destruct (eqV t1 t2) eqn:Ev; cbn [negb].
    - apply HV in Ev. split; auto.
    - assert (t1 <> t2) by (intros H; apply HV in H; congruence).
      destruct (starts_with (enc t2) (enc t1)) eqn:E1; [|destruct (starts_with (enc t1) (enc t2)) eqn:E2].
      + apply starts_with_iff in E1 as (zs & E1). split; [discriminate|]. intros H1. elim H. eauto.
      + apply starts_with_iff in E2 as (zs & E2). split; [discriminate|]. intros H1. elim H. eauto.
      + split; auto. intros _ ys [H1|H1]; exfalso.
        * rewrite (proj2 (starts_with_iff _ _) (ex_intro _ ys H1)) in E2. discriminate.
        * rewrite (proj2 (starts_with_iff _ _) (ex_intro _ ys H1)) in E1. discriminate.
  Qed.

  Lemma decode_error_eqb_refl : forall e, decode_error_eqb eqO e e = true.
  Proof. intros [[]|[]|o]; cbn; auto. now apply HO. Qed.

  (** The result of decoding from a [TestProducer] that ends with [Ok(())]. *)
  Lemma decode_from_test_producer : lawful_decode decode dec ->
    forall xs sizes pattern, nonzero sizes ->
    exists s', decode test_producer (test_producer_build xs (Ok tt) (Some sizes) (Some pattern) : test_producer_state byte unit unit) =
      Ret (s', match dec xs with Parsed v _ => Ok v | Failed o _ => Err (Other o) | Truncated => Err (UnexpectedEndOfInput tt) end).
  Proof.
    intros LD xs sizes pattern Hs.
    specialize (LD _ _ _ _ _ _ test_producer_lawful _ _ _ _ (@tp_rel_build byte unit unit xs (Ok tt) (Some sizes) (Some pattern) Hs)).
    destruct (dec xs); destruct LD as (s' & E1 & _); eauto.
  Qed.

  Lemma assert_producer_ok : lawful_decode decode dec ->
    forall xs sizes1 sizes2 pattern1 pattern2, nonzero sizes1 -> nonzero sizes2 ->
    assert_decoding_does_not_care_about_consumer_details decode eqV eqO xs sizes1 sizes2 pattern1 pattern2 = Ret tt.
  Proof.
    intros LD xs sizes1 sizes2 pattern1 pattern2 H1 H2. unfold assert_decoding_does_not_care_about_consumer_details.
    destruct (decode_from_test_producer LD xs pattern1 H1) as (s1 & ->). cbn [bind].
    destruct (decode_from_test_producer LD xs pattern2 H2) as (s2 & ->). cbn [bind].
    destruct (dec xs); rewrite ?eqV_refl, ?decode_error_eqb_refl; reflexivity.
  Qed.

  Lemma assert_excessive_ok : lawful_decode decode dec -> reads_no_further dec ->
    forall xs, assert_decoding_reads_no_excessive_bytes decode xs = Ret tt.
  Proof.
    intros LD RD xs. unfold assert_decoding_reads_no_excessive_bytes.
    destruct (decode_from_slice_state LD RD xs) as (s' & -> & H). cbn [bind].
    destruct (dec xs) as [v n|o n|] eqn:Ed; cbn [parse_result]; auto. rewrite H. cbn [bind].
    pose proof (proj1 (proj1 RD _ _ _ Ed)) as Hn.
    assert (Hl : length (firstn n xs) = n) by (rewrite firstn_length; lia). rewrite Hl.
    destruct (Nat.ltb_spec 1 n); [|reflexivity]. rewrite csub_ok by lia. cbn [bind].
    rewrite slice_to_ok by lia. cbn [bind]. rewrite firstn_firstn, Nat.min_l by lia.
    destruct (decode_from_slice_state LD RD (firstn (n - 1) xs)) as (s2 & -> & _). cbn [bind].
    rewrite (dec_prefix_truncated RD _ Ed) by lia. reflexivity.
  Qed.

  Lemma assert_round_trip_ok : lawful_encode encode enc -> lawful_decode decode dec ->
    forall t, assert_encoding_then_decoding_yields_the_original encode decode eqV t = Ret tt <->
      exists n, dec (enc t) = Parsed t n.
  Proof.
    intros LE LD t. unfold assert_encoding_then_decoding_yields_the_original.
    rewrite (encode_into_vec_ok LE). cbn [bind]. rewrite (decode_from_slice_ok LD). cbn [bind].
    destruct (dec (enc t)) as [v n|o n|] eqn:Ed; cbn [parse_result].
    - destruct (eqV t v) eqn:Ev; cbn [negb]; split; try discriminate; auto.
      + apply HV in Ev. subst. eauto.
      + intros (m & H). injection H as -> ->. rewrite eqV_refl in Ev. discriminate.
    - split; [discriminate|]. intros (m & H). discriminate.
    - split; [discriminate|]. intros (m & H). discriminate.
  Qed.

  Lemma assert_basic_ok : lawful_codec encode decode enc dec ->
    forall t1 t2 n1 n2 sizes1 sizes2 pattern1 pattern2 xs psizes1 psizes2 ppattern1 ppattern2,
    opt_nonzero sizes1 -> opt_nonzero sizes2 -> nonzero psizes1 -> nonzero psizes2 ->
    assert_basic_invariants encode decode eqV eqO t1 t2
      (test_consumer_build tt n1 sizes1 pattern1) (test_consumer_build tt n2 sizes2 pattern2)
      xs psizes1 psizes2 ppattern1 ppattern2 = Ret tt.
  Proof.
    intros L t1 t2 n1 n2 sizes1 sizes2 pattern1 pattern2 xs psizes1 psizes2 ppattern1 ppattern2 H1 H2 H3 H4.
    unfold assert_basic_invariants.
    rewrite (assert_consumer_ok (codec_encode L)) by auto. cbn [bind].
    rewrite (proj2 (assert_distinct_ok (codec_encode L) t1 t2)) by apply (codec_injective (codec_round_trips L)). cbn [bind].
    rewrite (proj2 (assert_prefix_free_ok (codec_encode L) t1 t2)).
    2: { intros ys [H|H]; [symmetry|]; eapply (codec_prefix_free (codec_reads L) (codec_round_trips L)); exact H. }
    cbn [bind]. rewrite (assert_producer_ok (codec_decode L)) by auto. cbn [bind].
    rewrite (assert_excessive_ok (codec_decode L) (codec_reads L)). cbn [bind].
    apply (assert_round_trip_ok (codec_encode L) (codec_decode L)). eexists. apply (codec_round_trips L).
  Qed.

  Lemma assert_known_size_ok : lawful_encode encode enc ->
    forall t, assert_known_size_invariants encode len_of_encoding t = Ret tt <-> len_of_encoding t = length (enc t).
  Proof.
    intros LE t. unfold assert_known_size_invariants, assert_len_of_encoding_is_accurate.
    rewrite (encode_into_vec_ok LE). cbn [bind]. destruct (Nat.eqb_spec (length (enc t)) (len_of_encoding t)); cbn [negb]; split; auto;
      try discriminate. congruence.
  Qed.

  Lemma assert_canonic_ok : lawful_codec encode decode enc dec -> lawful_canonic decode_canonic enc dec decc ->
    forall xs ys, assert_canonic_invariants encode decode decode_canonic eqV xs ys = Ret tt.
  Proof.
    intros L LC xs ys. unfold assert_canonic_invariants, assert_distinct_encodings_do_not_canonically_decode_to_equal_values,
      assert_canonic_decoding_specialises_regular_decoding, assert_canonic_decoding_roundtrips.
    destruct (decode_from_slice_state (canonic_decode LC) (canonic_reads LC) xs) as (s1 & E1 & H1).
    destruct (decode_from_slice_state (canonic_decode LC) (canonic_reads LC) ys) as (s2 & E2 & H2).
    rewrite E1. cbn [bind]. rewrite E2. cbn [bind]. rewrite (decode_from_slice_ok (canonic_decode LC)), (decode_from_slice_ok (codec_decode L)).
    cbn [bind].
    destruct (decc xs) as [v n|o n|] eqn:Ex; cbn [parse_result]; try reflexivity.
    destruct (canonic_agrees LC _ _ _ Ex) as [Hd He]. rewrite Hd. cbn [parse_result]. rewrite eqV_refl. cbn [negb bind].
    rewrite (encode_into_vec_ok (codec_encode L)), H1. cbn [bind]. rewrite He, (proj2 (bytes_eqb_iff _ _) eq_refl). cbn [negb].
    destruct (decc ys) as [v' n'|o' n'|] eqn:Ey; cbn [parse_result]; try reflexivity. rewrite H2. cbn [bind].
    destruct (eqV v v') eqn:Ev; [|now rewrite andb_false_r]. apply HV in Ev. subst v'.
    rewrite (canonic_injective (canonic_agrees LC) _ _ Ex Ey), (proj2 (bytes_eqb_iff _ _) eq_refl). reflexivity.
  Qed.

  (** What the assertions about canonic decoding say. *)
  Lemma assert_canonic_iff : lawful_encode encode enc -> lawful_decode decode dec ->
    lawful_decode decode_canonic decc -> reads_no_further decc ->
    forall xs ys, assert_canonic_invariants encode decode decode_canonic eqV xs ys = Ret tt <->
      forall v n, decc xs = Parsed v n ->
        (exists m, dec xs = Parsed v m) /\ enc v = firstn n xs /\
        (forall n', decc ys = Parsed v n' -> firstn n' ys = firstn n xs).
  Proof.
    intros LE LD LC RC xs ys. unfold assert_canonic_invariants, assert_distinct_encodings_do_not_canonically_decode_to_equal_values,
      assert_canonic_decoding_specialises_regular_decoding, assert_canonic_decoding_roundtrips.
    destruct (decode_from_slice_state LC RC xs) as (s1 & E1 & H1).
    destruct (decode_from_slice_state LC RC ys) as (s2 & E2 & H2).
    rewrite E1. cbn [bind]. rewrite E2. cbn [bind]. rewrite (decode_from_slice_ok LC), (decode_from_slice_ok LD).
    cbn [bind].
    destruct (decc xs) as [v n|o n|] eqn:Ex; cbn [parse_result]; try (split; [discriminate|reflexivity]).
    assert (HD : match parse_result (decc ys) with
        | Ok t2 => let* produced1 := from_slice_produced_so_far s1 in let* produced2 := from_slice_produced_so_far s2 in
            if negb (bytes_eqb produced1 produced2) && eqV v t2 then Panic else Ret tt
        | Err _ => Ret tt
        end = if match decc ys with Parsed v' n' => negb (bytes_eqb (firstn n xs) (firstn n' ys)) && eqV v v' | _ => false end then Panic else Ret tt).
    { destruct (decc ys) as [v' n'|o' n'|]; cbn [parse_result]; auto. rewrite H1. cbn [bind]. rewrite H2. reflexivity. }
    rewrite HD. clear HD.
    assert (HC : match decc ys with Parsed v' n' => negb (bytes_eqb (firstn n xs) (firstn n' ys)) && eqV v v' | _ => false end = false <->
      forall n', decc ys = Parsed v n' -> firstn n' ys = firstn n xs).
    { destruct (decc ys) as [v' n'|o' n'|]; try (split; [discriminate|reflexivity]).
      rewrite andb_false_iff, negb_false_iff, bytes_eqb_iff. split.
      - intros [H|H] m Hm; injection Hm as -> ->; [auto|]. rewrite eqV_refl in H. discriminate.
      - intros H. destruct (eqV v v') eqn:Ev; [|auto]. apply HV in Ev. subst v'. left. symmetry. auto. }
    rewrite (encode_into_vec_ok LE), H1. cbn [bind].
    split.
    - intros H v' n0 Hv. injection Hv as <- <-.
      destruct (match decc ys with Parsed _ _ => _ | _ => _ end); [discriminate|]. cbn [bind] in H.
      destruct (dec xs) as [w m|o m|]; cbn [parse_result bind] in H; try discriminate.
      destruct (eqV v w) eqn:Ew; cbn [negb bind] in H; [|discriminate]. apply HV in Ew. subst w.
      destruct (bytes_eqb (firstn n xs) (enc v)) eqn:Eb; [|discriminate]. apply bytes_eqb_iff in Eb.
      splits; eauto. now apply HC.
    - intros H. destruct (H v n eq_refl) as ((m & Hd) & He & Hn). rewrite (proj2 HC Hn). cbn [bind].
      rewrite Hd. cbn [parse_result]. rewrite eqV_refl. cbn [negb bind]. now rewrite He, (proj2 (bytes_eqb_iff _ _) eq_refl).
  Qed.
End Assertions.

(** ** What the assertions mean for arbitrary codecs *)
Lemma bind_ret : forall A B (o : outcome A) (k : A -> outcome B) y, bind o k = Ret y <-> exists x, o = Ret x /\ k x = Ret y.
Proof.
  intros A B [x| |] k y; cbn; split; intros H; try discriminate; eauto.
  - destruct H as (x' & E & H). injection E as <-. exact H.
  - destruct H as (x & E & _). discriminate.
  - destruct H as (x & E & _). discriminate.
Qed.

Section Mean.
  Context {V O OC : Type} (encode : encode_fn V) (decode : decode_fn V O) (decode_canonic : decode_fn V OC) (len : V -> nat)
    (eqV : V -> V -> bool) (eqO : O -> O -> bool).
  Hypothesis HV : forall v w, eqV v w = true <-> v = w.
  Hypothesis HO : forall v w, eqO v w = true <-> v = w.

  Lemma negb_eqV : forall v w X (a b : outcome X) y, (if negb (eqV v w) then a else b) = Ret y <-> (v <> w /\ a = Ret y) \/ (v = w /\ b = Ret y).
  Proof.
    intros v w X a b y. destruct (eqV v w) eqn:E; cbn.
    - apply HV in E. split; intros H; [auto|]. destruct H as [[H _]|[_ H]]; [congruence|exact H].
    - assert (v <> w) by (intros H; apply HV in H; congruence). split; intros H1; [auto|]. destruct H1 as [[_ H1]|[H1 _]]; [exact H1|congruence].
  Qed.

  Lemma decode_error_eqb_iff : forall e1 e2, decode_error_eqb eqO e1 e2 = true <-> e1 = e2.
  Proof.
    intros [[]|[]|o1] [[]|[]|o2]; cbn; split; intros H; try discriminate; auto.
    - apply HO in H. congruence.
    - injection H as H. now apply HO.
  Qed.

  Lemma common_prefix : forall xs ys : list byte,
    firstn (Nat.min (length xs) (length ys)) xs = firstn (Nat.min (length xs) (length ys)) ys <-> (exists zs, xs ++ zs = ys) \/ (exists zs, ys ++ zs = xs).
  Proof.
    intros xs ys. split.
    - intros H. destruct (Nat.le_ge_cases (length xs) (length ys)) as [Hl|Hl].
      + rewrite Nat.min_l in H by exact Hl. rewrite firstn_all in H. left. exists (skipn (length xs) ys). rewrite H at 1. apply firstn_skipn.
      + rewrite Nat.min_r in H by exact Hl. rewrite firstn_all in H. right. exists (skipn (length ys) xs). rewrite <- H at 1. apply firstn_skipn.
    - intros [(zs & <-)|(zs & <-)]; rewrite app_length.
      + rewrite Nat.min_l by lia. now rewrite firstn_app, Nat.sub_diag, firstn_O, app_nil_r.
      + rewrite Nat.min_r by lia. now rewrite firstn_app, Nat.sub_diag, firstn_O, app_nil_r.
  Qed.

  Lemma assert_consumer_mean : forall t c1 c2,
    assert_encoding_does_not_care_about_consumer_details encode t c1 c2 = Ret tt <->
    exists c1' r1 c2' r2 xs ys, encode (test_consumer x00) t c1 = Ret (c1', r1) /\ encode (test_consumer x00) t c2 = Ret (c2', r2) /\
      test_consumer_consumed c1' = Ret xs /\ test_consumer_consumed c2' = Ret ys /\ ((exists zs, xs ++ zs = ys) \/ (exists zs, ys ++ zs = xs)).
  Proof.
    intros t c1 c2. unfold assert_encoding_does_not_care_about_consumer_details. split.
    - rewrite bind_ret. intros ([c1' r1] & E1 & H). apply bind_ret in H as ([c2' r2] & E2 & H). apply bind_ret in H as (xs & E3 & H).
      apply bind_ret in H as (ys & E4 & H). rewrite !slice_to_ok in H by lia. cbn [bind] in H. unfold assert in H.
      destruct (bytes_eqb _ _) eqn:Eb in H; [|discriminate]. apply bytes_eqb_iff in Eb. apply common_prefix in Eb. exists c1', r1, c2', r2, xs, ys. auto.
    - intros (c1' & r1 & c2' & r2 & xs & ys & E1 & E2 & E3 & E4 & H). rewrite E1. cbn [bind]. rewrite E2. cbn [bind]. rewrite E3. cbn [bind]. rewrite E4. cbn [bind].
      rewrite !slice_to_ok by lia. cbn [bind]. apply common_prefix in H. rewrite H. unfold assert. now rewrite (proj2 (bytes_eqb_iff _ _) eq_refl).
  Qed.

  Lemma assert_distinct_mean : forall t1 t2,
    assert_distinct_values_produce_distinct_encodings encode eqV t1 t2 = Ret tt <->
    t1 = t2 \/ exists xs ys, encode_into_vec encode t1 = Ret xs /\ encode_into_vec encode t2 = Ret ys /\ t1 <> t2 /\ xs <> ys.
  Proof.
    intros t1 t2. unfold assert_distinct_values_produce_distinct_encodings. rewrite negb_eqV. split.
    - intros [[Hn H]|[He _]]; [right|now left]. apply bind_ret in H as (xs & E1 & H). apply bind_ret in H as (ys & E2 & H).
      exists xs, ys. splits; auto. intros ->. rewrite (proj2 (bytes_eqb_iff _ _) eq_refl) in H. discriminate.
    - intros [H|(xs & ys & E1 & E2 & Hn & H)]; [auto|left]. split; [exact Hn|]. rewrite E1. cbn [bind]. rewrite E2. cbn [bind].
      destruct (bytes_eqb xs ys) eqn:Eb; [|reflexivity]. apply bytes_eqb_iff in Eb. congruence.
  Qed.

  Lemma assert_prefix_free_mean : forall t1 t2,
    assert_encodings_are_prefix_free encode eqV t1 t2 = Ret tt <->
    t1 = t2 \/ exists xs ys, encode_into_vec encode t1 = Ret xs /\ encode_into_vec encode t2 = Ret ys /\
      t1 <> t2 /\ forall zs, xs ++ zs <> ys /\ ys ++ zs <> xs.
  Proof.
    intros t1 t2. unfold assert_encodings_are_prefix_free. rewrite negb_eqV. split.
    - intros [[Hn H]|[He _]]; [right|now left]. apply bind_ret in H as (xs & E1 & H). apply bind_ret in H as (ys & E2 & H).
      exists xs, ys. splits; auto. intros zs.
      destruct (starts_with ys xs) eqn:Ea; [discriminate|]. destruct (starts_with xs ys) eqn:Eb; [discriminate|].
      split; intros <-.
      + rewrite (proj2 (starts_with_iff _ _)) in Ea by eauto. discriminate.
      + rewrite (proj2 (starts_with_iff _ _)) in Eb by eauto. discriminate.
    - intros [H|(xs & ys & E1 & E2 & Hn & H)]; [auto|left]. split; [exact Hn|]. rewrite E1. cbn [bind]. rewrite E2. cbn [bind].
      destruct (starts_with ys xs) eqn:Ea; [apply starts_with_iff in Ea as (zs & ->); now elim (proj1 (H zs))|].
      destruct (starts_with xs ys) eqn:Eb; [apply starts_with_iff in Eb as (zs & ->); now elim (proj2 (H zs))|reflexivity].
  Qed.

  Lemma assert_producer_mean : forall xs sizes1 sizes2 pattern1 pattern2,
    assert_decoding_does_not_care_about_consumer_details decode eqV eqO xs sizes1 sizes2 pattern1 pattern2 = Ret tt <->
    exists p1 p2 r, decode test_producer (test_producer_build xs (Ok tt : res unit unit) (Some sizes1) (Some pattern1)) = Ret (p1, r) /\
      decode test_producer (test_producer_build xs (Ok tt : res unit unit) (Some sizes2) (Some pattern2)) = Ret (p2, r).
  Proof.
    intros xs sizes1 sizes2 pattern1 pattern2. unfold assert_decoding_does_not_care_about_consumer_details. split.
    - intros H. apply bind_ret in H as ([p1 r1] & E1 & H). apply bind_ret in H as ([p2 r2] & E2 & H). exists p1, p2, r1. split; [exact E1|].
      rewrite E2. destruct r1 as [v1|e1], r2 as [v2|e2]; try discriminate.
      + apply negb_eqV in H as [[_ H]|[-> _]]; [discriminate|reflexivity].
      + destruct (decode_error_eqb eqO e1 e2) eqn:Ee; [|discriminate]. apply decode_error_eqb_iff in Ee. now subst.
    - intros (p1 & p2 & r & E1 & E2). rewrite E1. cbn [bind]. rewrite E2. cbn [bind]. destruct r as [v|e].
      + apply negb_eqV. auto.
      + now rewrite (proj2 (decode_error_eqb_iff e e) eq_refl).
  Qed.

  Lemma removelast_firstn_len : forall xs : list byte, removelast xs = firstn (pred (length xs)) xs.
  Proof. induction xs as [|x [|y xs] IH]; [reflexivity..|]. cbn [removelast length pred firstn] in *. now rewrite IH. Qed.

  Lemma assert_excessive_mean : forall xs,
    assert_decoding_reads_no_excessive_bytes decode xs = Ret tt <->
    exists p r, decode from_slice_producer (from_slice_new xs) = Ret (p, r) /\
      (is_ok r = true -> exists read, from_slice_produced_so_far p = Ret read /\
        (length read <= 1 \/ exists p', decode from_slice_producer (from_slice_new (removelast read)) = Ret (p', Err (UnexpectedEndOfInput tt)))).
  Proof.
    intros xs. unfold assert_decoding_reads_no_excessive_bytes. split.
    - intros H. apply bind_ret in H as ([p r] & E1 & H). exists p, r. split; [exact E1|]. destruct r as [v|e]; [|discriminate]. intros _.
      apply bind_ret in H as (read & E2 & H). exists read. split; [exact E2|].
      destruct (1 <? length read) eqn:El; [right|left; apply Nat.ltb_ge in El; exact El]. apply Nat.ltb_lt in El.
      rewrite csub_ok in H by lia. cbn [bind] in H. rewrite slice_to_ok in H by lia. cbn [bind] in H.
      apply bind_ret in H as ([p2 r2] & E3 & H). exists p2.
      replace (removelast read) with (firstn (length read - 1) read).
      + rewrite E3. destruct r2 as [v2|[[]|e2|o2]]; try discriminate. reflexivity.
      + rewrite (removelast_firstn_len read). f_equal. lia.
    - intros (p & r & E1 & H). rewrite E1. cbn [bind]. destruct r as [v|e]; [|reflexivity]. destruct (H eq_refl) as (read & E2 & H'). rewrite E2. cbn [bind].
      destruct (1 <? length read) eqn:El; [|reflexivity]. apply Nat.ltb_lt in El. destruct H' as [H'|(p' & E3)]; [lia|].
      rewrite csub_ok by lia. cbn [bind]. rewrite slice_to_ok by lia. cbn [bind].
      replace (firstn (length read - 1) read) with (removelast read) by (rewrite (removelast_firstn_len read); f_equal; lia).
      rewrite E3. reflexivity.
  Qed.

  Lemma assert_round_trip_mean : forall t,
    assert_encoding_then_decoding_yields_the_original encode decode eqV t = Ret tt <->
    exists xs, encode_into_vec encode t = Ret xs /\ decode_from_slice decode xs = Ret (Ok t).
  Proof.
    intros t. unfold assert_encoding_then_decoding_yields_the_original. split.
    - intros H. apply bind_ret in H as (xs & E1 & H). apply bind_ret in H as (r & E2 & H). exists xs. split; [exact E1|]. rewrite E2.
      destruct r as [v|e]; [|discriminate]. apply negb_eqV in H as [[_ H]|[-> _]]; [discriminate|reflexivity].
    - intros (xs & E1 & E2). rewrite E1. cbn [bind]. rewrite E2. cbn [bind]. apply negb_eqV. auto.
  Qed.

  Lemma assert_length_mean : forall t, assert_known_size_invariants encode len t = Ret tt <-> exists xs, encode_into_vec encode t = Ret xs /\ length xs = len t.
  Proof.
    intros t. unfold assert_known_size_invariants, assert_len_of_encoding_is_accurate. split.
    - intros H. apply bind_ret in H as (xs & E1 & H). exists xs. split; [exact E1|]. destruct (length xs =? len t) eqn:El; [now apply Nat.eqb_eq|discriminate].
    - intros (xs & E1 & H). rewrite E1. cbn [bind]. apply Nat.eqb_eq in H. now rewrite H.
  Qed.

  Lemma assert_canonic_distinct_mean : forall xs ys,
    assert_distinct_encodings_do_not_canonically_decode_to_equal_values decode_canonic eqV xs ys = Ret tt <->
    exists p1 r1 p2 r2, decode_canonic from_slice_producer (from_slice_new xs) = Ret (p1, r1) /\
      decode_canonic from_slice_producer (from_slice_new ys) = Ret (p2, r2) /\
      (is_ok r1 = true -> is_ok r2 = true -> exists read1 read2,
         from_slice_produced_so_far p1 = Ret read1 /\ from_slice_produced_so_far p2 = Ret read2 /\ (r1 = r2 -> read1 = read2)).
  Proof.
    intros xs ys. unfold assert_distinct_encodings_do_not_canonically_decode_to_equal_values. split.
    - intros H. apply bind_ret in H as ([p1 r1] & E1 & H). apply bind_ret in H as ([p2 r2] & E2 & H). exists p1, r1, p2, r2. splits; auto.
      destruct r1 as [v1|e1], r2 as [v2|e2]; try discriminate. intros _ _.
      apply bind_ret in H as (read1 & E3 & H). apply bind_ret in H as (read2 & E4 & H). exists read1, read2. splits; auto. intros Ev.
      injection Ev as <-. rewrite (proj2 (HV v1 v1) eq_refl), andb_true_r in H. destruct (bytes_eqb read1 read2) eqn:Eb; [|discriminate]. now apply bytes_eqb_iff.
    - intros (p1 & r1 & p2 & r2 & E1 & E2 & H). rewrite E1. cbn [bind]. rewrite E2. cbn [bind]. destruct r1 as [v1|e1], r2 as [v2|e2]; try reflexivity.
      destruct (H eq_refl eq_refl) as (read1 & read2 & E3 & E4 & Hr). rewrite E3. cbn [bind]. rewrite E4. cbn [bind].
      destruct (eqV v1 v2) eqn:Ev; [|now rewrite andb_false_r]. apply HV in Ev. subst. rewrite (Hr eq_refl), (proj2 (bytes_eqb_iff _ _) eq_refl). reflexivity.
  Qed.

  Lemma assert_canonic_roundtrip_mean : forall xs,
    assert_canonic_decoding_roundtrips encode decode_canonic xs = Ret tt <->
    exists p r, decode_canonic from_slice_producer (from_slice_new xs) = Ret (p, r) /\
      forall v, r = Ok v -> exists read, from_slice_produced_so_far p = Ret read /\ encode_into_vec encode v = Ret read.
  Proof.
    intros xs. unfold assert_canonic_decoding_roundtrips. split.
    - intros H. apply bind_ret in H as ([p r] & E1 & H). exists p, r. split; [exact E1|]. intros v ->.
      apply bind_ret in H as (again & E2 & H). apply bind_ret in H as (read & E3 & H). exists read. split; [exact E3|].
      destruct (bytes_eqb read again) eqn:Eb; [|discriminate]. apply bytes_eqb_iff in Eb. congruence.
    - intros (p & r & E1 & H). rewrite E1. cbn [bind]. destruct r as [v|e]; [|reflexivity]. destruct (H _ eq_refl) as (read & E2 & E3).
      rewrite E3. cbn [bind]. rewrite E2. cbn [bind]. now rewrite (proj2 (bytes_eqb_iff _ _) eq_refl).
  Qed.

  Lemma assert_canonic_specialises_mean : forall xs,
    assert_canonic_decoding_specialises_regular_decoding decode decode_canonic eqV xs = Ret tt <->
    exists r, decode_from_slice decode_canonic xs = Ret r /\ forall v, r = Ok v -> decode_from_slice decode xs = Ret (Ok v).
  Proof.
    intros xs. unfold assert_canonic_decoding_specialises_regular_decoding. split.
    - intros H. apply bind_ret in H as (r & E1 & H). exists r. split; [exact E1|]. intros v ->. apply bind_ret in H as (r2 & E2 & H).
      rewrite E2. destruct r2 as [v2|e2]; [|discriminate]. apply negb_eqV in H as [[_ H]|[-> _]]; [discriminate|reflexivity].
    - intros (r & E1 & H). rewrite E1. cbn [bind]. destruct r as [v|e]; [|reflexivity]. rewrite (H _ eq_refl). cbn [bind]. apply negb_eqV. auto.
  Qed.

  Lemma assert_basic_parts : forall t1 t2 c1 c2 xs sizes1 sizes2 pattern1 pattern2,
    assert_basic_invariants encode decode eqV eqO t1 t2 c1 c2 xs sizes1 sizes2 pattern1 pattern2 = Ret tt <->
    assert_encoding_does_not_care_about_consumer_details encode t1 c1 c2 = Ret tt /\
    assert_distinct_values_produce_distinct_encodings encode eqV t1 t2 = Ret tt /\
    assert_encodings_are_prefix_free encode eqV t1 t2 = Ret tt /\
    assert_decoding_does_not_care_about_consumer_details decode eqV eqO xs sizes1 sizes2 pattern1 pattern2 = Ret tt /\
    assert_decoding_reads_no_excessive_bytes decode xs = Ret tt /\
    assert_encoding_then_decoding_yields_the_original encode decode eqV t1 = Ret tt.
  Proof.
    intros. unfold assert_basic_invariants. split.
    - intros H. apply bind_ret in H as ([] & E1 & H). apply bind_ret in H as ([] & E2 & H). apply bind_ret in H as ([] & E3 & H).
      apply bind_ret in H as ([] & E4 & H). apply bind_ret in H as ([] & E5 & H). splits; assumption.
    - intros (E1 & E2 & E3 & E4 & E5 & E6). rewrite E1. cbn [bind]. rewrite E2. cbn [bind]. rewrite E3. cbn [bind]. rewrite E4. cbn [bind].
      rewrite E5. cbn [bind]. exact E6.
  Qed.
  Lemma assert_canonic_parts : forall xs ys,
    assert_canonic_invariants encode decode decode_canonic eqV xs ys = Ret tt <->
    assert_distinct_encodings_do_not_canonically_decode_to_equal_values decode_canonic eqV xs ys = Ret tt /\
    assert_canonic_decoding_specialises_regular_decoding decode decode_canonic eqV xs = Ret tt /\
    assert_canonic_decoding_roundtrips encode decode_canonic xs = Ret tt.
  Proof.
    intros. unfold assert_canonic_invariants. split.
    - intros H. apply bind_ret in H as ([] & E1 & H). apply bind_ret in H as ([] & E2 & H). splits; assumption.
    - intros (E1 & E2 & E3). rewrite E1. cbn [bind]. rewrite E2. cbn [bind]. exact E3.
  Qed.
End Mean.

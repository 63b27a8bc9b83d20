(** Facts about byte representations, and that the endian wrappers are lawful codecs. *)
From Coq Require Import Bool List Arith ZArith Lia Eqdep_dec.
From Coq.Init Require Import Byte.
From Coq.Strings Require Byte.
From Verif Require Import Prelude ListFacts Traits Contracts ContractFacts PipeSpec PipeProofs BasicModel CodecModel CodecSpec EndianModel EndianSpec.
Import ListNotations.
Local Open Scope Z_scope.

Lemma num_eq : forall i (v w : num i), num_val v = num_val w -> v = w.
Proof.
  intros i [v Hv] [w Hw] H. cbn in H. subst w. f_equal. apply UIP_dec. apply bool_dec.
Qed.

Lemma byte_val_bound : forall b, 0 <= byte_val b < 256.
Proof. intros b. unfold byte_val. pose proof (Byte.to_N_bounded b). lia. Qed.

Lemma byte_val_low : forall z, byte_val (low_byte z) = z mod 256.
Proof.
  intros z. unfold byte_val, low_byte. pose proof (Z.mod_pos_bound z 256 ltac:(lia)) as H.
  destruct (Byte.of_N (Z.to_N (z mod 256))) as [b|] eqn:E1.
  - apply Byte.to_of_N in E1. rewrite E1. rewrite Z2N.id; lia.
  - exfalso. apply Byte.of_N_None_iff in E1. lia.
Qed.

Lemma byte_val_inj : forall b c, byte_val b = byte_val c -> b = c.
Proof.
  intros b c H. unfold byte_val in H. apply N2Z.inj in H.
  pose proof (Byte.of_to_N b) as Hb. pose proof (Byte.of_to_N c) as Hc. rewrite H in Hb. congruence.
Qed.

Lemma low_byte_val : forall b z, low_byte (byte_val b + 256 * z) = b.
Proof.
  intros b z. apply byte_val_inj. rewrite byte_val_low. rewrite Z.mul_comm, Z_mod_plus_full.
  apply Z.mod_small. apply byte_val_bound.
Qed.

Lemma length_le_bytes : forall n z, length (le_bytes n z) = n.
Proof. induction n; cbn; auto. Qed.

Lemma le_val_bound : forall bs, 0 <= le_val bs < 256 ^ Z.of_nat (length bs).
Proof.
  induction bs as [|b bs IH]; cbn [le_val length]; [cbn; lia|].
  rewrite Nat2Z.inj_succ, Z.pow_succ_r by lia. pose proof (byte_val_bound b). lia.
Qed.

Lemma le_val_bytes : forall n z, le_val (le_bytes n z) = z mod 256 ^ Z.of_nat n.
Proof.
  induction n as [|n IH]; intros z; cbn [le_bytes le_val].
  - cbn. now rewrite Z.mod_1_r.
  - rewrite IH, byte_val_low, Nat2Z.inj_succ, Z.pow_succ_r by lia.
    rewrite Z.rem_mul_r; [reflexivity|lia|]. apply Z.pow_pos_nonneg; lia.
Qed.

Lemma le_bytes_val : forall bs z, le_bytes (length bs) (le_val bs + 256 ^ Z.of_nat (length bs) * z) = bs.
Proof.
  induction bs as [|b bs IH]; intros z; cbn [length le_bytes le_val]; auto.
  rewrite Nat2Z.inj_succ, Z.pow_succ_r by lia. f_equal.
  - etransitivity; [|exact (low_byte_val b (le_val bs + 256 ^ Z.of_nat (length bs) * z))]. f_equal. lia.
  - etransitivity; [|exact (IH z)]. f_equal.
    replace (byte_val b + 256 * le_val bs + 256 * 256 ^ Z.of_nat (length bs) * z)
      with (byte_val b + (le_val bs + 256 ^ Z.of_nat (length bs) * z) * 256) by lia.
    rewrite Z_div_plus_full by lia. rewrite Z.div_small by apply byte_val_bound. lia.
Qed.

Lemma nth_le_bytes : forall n z i, (i < n)%nat ->
  nth_error (le_bytes n z) i = Some (low_byte (z / 256 ^ Z.of_nat i)).
Proof.
  induction n as [|n IH]; intros z i Hi; [lia|]. destruct i as [|i]; cbn [le_bytes nth_error].
  - cbn. now rewrite Z.div_1_r.
  - rewrite IH by lia. rewrite Nat2Z.inj_succ, Z.pow_succ_r by lia. rewrite Z.div_div by lia. reflexivity.
Qed.

(** [wrap] *)
Lemma wrap_cong : forall i z, exists q, wrap i z = z + 2 ^ Z.of_nat (BITS i) * q.
Proof.
  intros i z. unfold wrap. pose proof (Z_div_mod_eq_full z (2 ^ Z.of_nat (BITS i))) as H.
  match goal with |- context [if ?c then _ else _] => destruct c end.
  - exists (- (z / 2 ^ Z.of_nat (BITS i)) - 1). lia.
  - exists (- (z / 2 ^ Z.of_nat (BITS i))). lia.
Qed.

Lemma range_unique : forall i a b q, in_range i a = true -> in_range i b = true ->
  a = b + 2 ^ Z.of_nat (BITS i) * q -> a = b.
Proof.
  intros i a b q Ha Hb H. unfold in_range in *. apply andb_true_iff in Ha, Hb.
  rewrite !Z.leb_le in *.
  set (m := 2 ^ Z.of_nat (BITS i)) in *.
  assert (Hm : m = MAX i - MIN i + 1) by (destruct i; reflexivity).
  assert (0 < m) by (destruct i; reflexivity). clearbody m.
  assert (q = 0) by nia. subst q. lia.
Qed.

Lemma wrap_eq : forall i a z q, in_range i a = true -> a = z + 2 ^ Z.of_nat (BITS i) * q -> wrap i z = a.
Proof.
  intros i a z q Ha H. destruct (wrap_cong i z) as (q' & Hq). apply range_unique with (i := i) (q := q' - q).
  - apply wrap_ok.
  - exact Ha.
  - rewrite Hq, H. lia.
Qed.

Lemma pow_bits : forall i, 256 ^ Z.of_nat (BITS i / 8) = 2 ^ Z.of_nat (BITS i).
Proof. destruct i; reflexivity. Qed.

Lemma num_of_le_bytes : forall i (v : num i), num_of i (le_val (le_bytes (BITS i / 8) (num_val v))) = v.
Proof.
  intros i v. apply num_eq. unfold num_of. cbn [num_val]. rewrite le_val_bytes, pow_bits.
  eapply wrap_eq; [apply num_ok|]. rewrite Z.add_comm. apply Z_div_mod_eq_full.
Qed.

Lemma le_bytes_num_of : forall i bs, length bs = (BITS i / 8)%nat -> le_bytes (BITS i / 8) (num_val (num_of i (le_val bs))) = bs.
Proof.
  intros i bs H. unfold num_of. cbn [num_val]. destruct (wrap_cong i (le_val bs)) as (q & ->).
  rewrite <- pow_bits, <- H. apply le_bytes_val.
Qed.

Lemma length_to_bytes : forall w v, length (to_bytes w v) = (BITS (wrapped w) / 8)%nat.
Proof.
  intros w v. destruct w; unfold to_bytes, to_le_bytes, to_be_bytes; rewrite ?rev_length; apply length_le_bytes.
Qed.

Lemma from_to_bytes : forall w v, from_bytes w (to_bytes w v) = v.
Proof.
  intros w v. destruct w; unfold to_bytes, from_bytes, to_le_bytes, to_be_bytes, from_le_bytes, from_be_bytes;
    rewrite ?rev_involutive; apply num_of_le_bytes.
Qed.

Lemma to_from_bytes : forall w bs, length bs = (BITS (wrapped w) / 8)%nat -> to_bytes w (from_bytes w bs) = bs.
Proof.
  intros w bs H. destruct w; unfold to_bytes, from_bytes, to_le_bytes, to_be_bytes, from_le_bytes, from_be_bytes.
  all: try (apply le_bytes_num_of; exact H).
  all: rewrite le_bytes_num_of; [apply rev_involutive|rewrite rev_length; exact H].
Qed.

(** The layout. *)
Lemma to_bytes_layout : forall w v i b, (i < BITS (wrapped w) / 8)%nat ->
  nth_error (to_bytes w v) i = Some b ->
  byte_val b = digit (num_val v)
    (match order w with LittleEndian => i | BigEndian => BITS (wrapped w) / 8 - 1 - i end).
Proof.
  intros w v i b Hi Hb.
  assert (HL : forall z j c, (j < BITS (wrapped w) / 8)%nat ->
     nth_error (le_bytes (BITS (wrapped w) / 8) z) j = Some c -> byte_val c = digit z j).
  { intros z j c Hj Hc. rewrite nth_le_bytes in Hc by auto. injection Hc as <-. apply byte_val_low. }
  assert (HR : nth_error (rev (le_bytes (BITS (wrapped w) / 8) (num_val v))) i = Some b ->
     byte_val b = digit (num_val v) (BITS (wrapped w) / 8 - 1 - i)).
  { intros Hc. apply HL; [lia|]. rewrite <- Hc.
    erewrite nth_error_nth' with (d := x00) by (rewrite length_le_bytes; lia).
    erewrite nth_error_nth' with (d := x00) by (rewrite rev_length, length_le_bytes; lia).
    f_equal. rewrite rev_nth by (rewrite length_le_bytes; lia). f_equal. rewrite length_le_bytes. lia. }
  destruct w; cbn [order] in *; try (apply HR; exact Hb); try (apply HL; [exact Hi|exact Hb]).
Qed.

(** ** The wrappers are lawful codecs *)

Lemma endian_lawful_encode : forall w, lawful_encode (endian_encode w) (to_bytes w).
Proof.
  intros w S A F E C M R D L v s a k wr HR. unfold endian_encode.
  pose proof (@bulk_consume_full_slice_lawful _ _ _ _ _ C M R D L (Datatypes.S (length (to_bytes w v))) (to_bytes w v) s a k wr HR ltac:(lia)) as H.
  destruct (m_feed M (to_bytes w v) a) as [[a' n] [e|]].
  - destruct H as (s' & m & E1 & HD & _). exists s'. rewrite E1. auto.
  - destruct H as (s' & E1 & HR'). exists s'. rewrite E1. auto.
Qed.

Lemma endian_lawful_decode : forall w, lawful_decode (endian_decode w) (endian_parse w (from_bytes w)).
Proof.
  intros w S F E P R D L s xs l k HR. unfold endian_decode, endian_parse.
  pose proof (@bulk_overwrite_full_slice_lawful _ _ _ _ P R D L (Datatypes.S (length (repeat x00 (BITS (wrapped w) / 8))))
    (repeat x00 (BITS (wrapped w) / 8)) s xs l k HR ltac:(lia)) as H.
  unfold overwrite_effect in H. rewrite repeat_length in H |- *. destruct (_ <=? _)%nat.
  - destruct H as (s' & E1 & HR'). exists s'. rewrite E1. auto.
  - destruct H as (s' & E1 & HD). exists s'. rewrite E1. cbn [bind]. split; auto.
    unfold decode_error_from_at_least. cbn [pale_reason]. destruct l; reflexivity.
Qed.

Lemma endian_reads : forall O w (f : list byte -> num (wrapped w)), reads_no_further (@endian_parse O w f).
Proof.
  intros O w f. unfold endian_parse. split.
  - intros xs v n. destruct (Nat.leb_spec (BITS (wrapped w) / 8) (length xs)) as [Hl|]; [|discriminate].
    intros H. injection H as <- <-. split; auto. intros ys.
    assert (Hf : length (firstn (BITS (wrapped w) / 8) xs) = (BITS (wrapped w) / 8)%nat) by (rewrite firstn_length; lia).
    rewrite app_length, Hf. destruct (Nat.leb_spec (BITS (wrapped w) / 8) (BITS (wrapped w) / 8 + length ys)); [|lia].
    rewrite firstn_app, Hf, Nat.sub_diag, firstn_O, app_nil_r, firstn_firstn, Nat.min_id. reflexivity.
  - intros xs o n. destruct (_ <=? _)%nat; discriminate.
Qed.

Lemma endian_codec : forall w,
  lawful_codec (endian_encode w) (endian_decode w) (to_bytes w) (endian_parse w (from_bytes w)).
Proof.
  intros w. constructor.
  - apply endian_lawful_encode.
  - apply endian_lawful_decode.
  - apply endian_reads.
  - intros v. unfold endian_parse. rewrite length_to_bytes, Nat.leb_refl.
    rewrite <- (length_to_bytes w v), firstn_all, from_to_bytes. reflexivity.
Qed.

Lemma endian_canonic : forall w,
  lawful_canonic (endian_decode_canonic w) (to_bytes w) (@endian_parse infallible w (from_bytes w))
    (endian_parse w (from_bytes w)).
Proof.
  intros w. constructor.
  - exact (endian_lawful_decode w).
  - apply endian_reads.
  - intros xs v n. unfold endian_parse. destruct (Nat.leb_spec (BITS (wrapped w) / 8) (length xs)) as [Hl|]; [|discriminate].
    intros H. injection H as <- <-. split; auto. apply to_from_bytes. rewrite firstn_length. lia.
Qed.

(** ** The encoding as described in the specification *)

Lemma width_bits : forall w, (BITS (wrapped w) / 8)%nat = width w.
Proof. destruct w; reflexivity. Qed.

Lemma map_byte_val_le_bytes : forall n z, map byte_val (le_bytes n z) = map (digit z) (seq 0 n).
Proof.
  induction n as [|n IH]; intros z; cbn [le_bytes map seq]; auto. f_equal.
  - rewrite byte_val_low. unfold digit. cbn. now rewrite Z.div_1_r.
  - rewrite IH, <- seq_shift, map_map. apply map_ext. intros i. unfold digit.
    rewrite Nat2Z.inj_succ, Z.pow_succ_r, Z.div_div by lia. reflexivity.
Qed.

Lemma map_byte_val_inj : forall xs ys, map byte_val xs = map byte_val ys -> xs = ys.
Proof.
  induction xs as [|x xs IH]; destruct ys as [|y ys]; intros H; try discriminate; auto.
  injection H as H1 H2. f_equal; auto. now apply byte_val_inj.
Qed.

Lemma to_bytes_encodes : forall w v, encodes w v (to_bytes w v).
Proof.
  intros w v. unfold encodes. destruct w; cbn [order]; unfold to_bytes, to_le_bytes, to_be_bytes;
    rewrite ?map_rev, map_byte_val_le_bytes; reflexivity.
Qed.

Lemma encodes_iff : forall w v bs, encodes w v bs <-> bs = to_bytes w v.
Proof.
  intros w v bs. split; [|intros ->; apply to_bytes_encodes]. intros H.
  apply map_byte_val_inj. etransitivity; [exact H|]. symmetry. apply to_bytes_encodes.
Qed.

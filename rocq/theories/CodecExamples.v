(** Codecs to instantiate the general theorems with: a variable-length encoding that does not accept all byte
    strings, a relative codec, and a codec with an empty encoding. These are not part of the modelled code. *)
From Coq Require Import Bool List Arith ZArith Lia.
From Coq.Init Require Import Byte.
From Verif Require Import Prelude ListFacts Traits Contracts ContractFacts PipeProofs BasicModel CodecModel CodecSpec
  EndianModel EndianSpec EndianProofs.
Import ListNotations.
Set Implicit Arguments.

(** ** Optional bytes: [00] or [01 b] *)

Definition opt_enc (v : option byte) : list byte := match v with None => [x00] | Some b => [x01; b] end.
Definition opt_dec (xs : list byte) : parse (option byte) byte :=
  match xs with
  | [] => Truncated
  | x00 :: _ => Parsed None 1
  | x01 :: [] => Truncated
  | x01 :: b :: _ => Parsed (Some b) 2
  | t :: _ => Failed t 1
  end.

Definition opt_encode : encode_fn (option byte) :=
  fun S F E C v s =>
    let* (s, r) := bulk_consume_full_slice 3 C (opt_enc v) s in Ret (s, map_err (@cale_reason E) r).

Definition opt_decode : decode_fn (option byte) byte :=
  fun S F E P s =>
    let* (s, r) := p_produce P s in
    match r with
    | Err e => Ret (s, Err (Producer e))
    | Ok (inr f) => Ret (s, Err (UnexpectedEndOfInput f))
    | Ok (inl x00) => Ret (s, Ok None)
    | Ok (inl x01) =>
        let* (s, r) := p_produce P s in
        match r with
        | Err e => Ret (s, Err (Producer e))
        | Ok (inr f) => Ret (s, Err (UnexpectedEndOfInput f))
        | Ok (inl b) => Ret (s, Ok (Some b))
        end
    | Ok (inl t) => Ret (s, Err (Other t))
    end.

Lemma opt_lawful_encode : lawful_encode opt_encode opt_enc.
Proof.
  intros S A F E C M R D L v s a k wr HR. unfold opt_encode.
  pose proof (@bulk_consume_full_slice_lawful _ _ _ _ _ C M R D L 3 (opt_enc v) s a k wr HR ltac:(destruct v; cbn; lia)) as H.
  destruct (m_feed M (opt_enc v) a) as [[a' n] [e|]].
  - destruct H as (s' & m & E1 & HD & _). exists s'. rewrite E1. auto.
  - destruct H as (s' & E1 & HR'). exists s'. rewrite E1. auto.
Qed.

Lemma opt_lawful_decode : lawful_decode opt_decode opt_dec.
Proof.
  intros S F E P R D L s xs l k HR. unfold opt_decode. destruct xs as [|t xs].
  - cbn [opt_dec]. destruct (lp_produce_last (lp_core L) HR) as (s' & E1 & HD). exists s'. rewrite E1. destruct l; auto.
  - destruct (lp_produce (lp_core L) HR) as (s1 & E1 & HR1). apply (lp_forget (lp_core L)) in HR1. rewrite E1. cbn [bind].
    destruct t; try (exists s1; split; [reflexivity|exact HR1]). cbn [opt_dec]. destruct xs as [|b xs].
    + destruct (lp_produce_last (lp_core L) HR1) as (s' & E2 & HD). exists s'. rewrite E2. destruct l; auto.
    + destruct (lp_produce (lp_core L) HR1) as (s2 & E2 & HR2). apply (lp_forget (lp_core L)) in HR2. rewrite E2. exists s2. auto.
Qed.

Lemma opt_reads : reads_no_further opt_dec.
Proof.
  split; intros [|t [|b xs]] v n H; try discriminate; destruct t; cbn in H; try discriminate; injection H as <- <-;
    cbn; split; auto; lia.
Qed.

Lemma opt_codec : lawful_codec opt_encode opt_decode opt_enc opt_dec.
Proof.
  constructor.
  - exact opt_lawful_encode.
  - exact opt_lawful_decode.
  - exact opt_reads.
  - intros [b|]; reflexivity.
Qed.

Lemma opt_canonic : lawful_canonic opt_decode opt_enc opt_dec opt_dec.
Proof.
  constructor; [exact opt_lawful_decode|exact opt_reads|].
  intros [|t [|b xs]] v n H; try discriminate; destruct t; cbn in H; try discriminate; injection H as <- <-; auto.
Qed.

Lemma opt_nonempty : forall v, opt_enc v <> [].
Proof. intros [b|]; discriminate. Qed.

Lemma opt_positive : forall xs v n, opt_dec xs = Parsed v n -> 1 <= n.
Proof. intros [|t [|b xs]] v n H; try discriminate; destruct t; cbn in H; try discriminate; injection H as <- <-; lia. Qed.

(** ** A [u16] whose byte order is given by the reference value *)

Definition rel_encode (r : bool) : encode_fn (num u16) := if r then endian_encode U16BE else endian_encode U16LE.
Definition rel_decode (r : bool) : decode_fn (num u16) infallible := if r then endian_decode U16BE else endian_decode U16LE.
Definition rel_enc (r : bool) : num u16 -> list byte := if r then to_bytes U16BE else to_bytes U16LE.
Definition rel_dec (r : bool) : list byte -> parse (num u16) infallible :=
  if r then endian_parse U16BE (from_bytes U16BE) else endian_parse U16LE (from_bytes U16LE).

Lemma rel_codec : forall r, lawful_codec (rel_encode r) (rel_decode r) (rel_enc r) (rel_dec r).
Proof. intros [|]; [apply (endian_codec U16BE)|apply (endian_codec U16LE)]. Qed.

Lemma rel_nonempty : forall r v, rel_enc r v <> [].
Proof.
  intros r v H. apply (f_equal (@length _)) in H. destruct r; cbn [rel_enc] in H; rewrite length_to_bytes in H; discriminate.
Qed.

(** ** The unit type, encoded as nothing *)

Definition unit_enc (v : unit) : list byte := [].
Definition unit_dec (xs : list byte) : parse unit infallible := Parsed tt 0.
Definition unit_encode : encode_fn unit := fun S F E C v s => Ret (s, Ok tt).
Definition unit_decode : decode_fn unit infallible := fun S F E P s => Ret (s, Ok tt).

Lemma unit_codec : lawful_codec unit_encode unit_decode unit_enc unit_dec.
Proof.
  constructor.
  - intros S A F E C M R D L v s a k wr HR. exists s. split; [reflexivity|]. exact (lc_forget (lc_core L) HR).
  - intros S F E P R D L s xs l k HR. exists s. split; [reflexivity|]. exact (lp_forget (lp_core L) HR).
  - split; intros xs v n H; [|discriminate]. injection H as <- <-. split; [lia|reflexivity].
  - intros []. reflexivity.
Qed.

(** Pipes and codecs on corresponding states. *)
From Coq Require Import Bool List Arith Lia.
From Coq.Init Require Import Byte.
From Verif Require Import Prelude QueueModel Traits BasicModel CodecModel EndianModel IoModel FuzzModel AsyncModel AsyncSpec AsyncAdaptorModel AsyncIoModel JoinModel CorrProofs LinkModel.
Import ListNotations.
Set Implicit Arguments.

Section Code.
  Context {P C : Type} (env : C -> P -> P) (G : P -> P -> Prop) (B : P -> Prop) (N : nat).
  Context (Grefl : forall p, G p p) (Gtrans : forall p q r, G p q -> G q r -> G p r).
  Notation co v V f1 f2 := (corr env G B N v V f1 f2).

  Ltac cstep :=
    match goal with
    | |- corr _ _ _ _ _ _ (await _ _) (await _ _) =>
        eapply corr_await with (V := eq); [exact Gtrans| |intros ? ? <-]
    | |- corr _ _ _ _ _ _ (ret _) (ret _) => eapply corr_ret; [exact Grefl|auto]
    | |- corr _ _ _ _ _ _ (attempt _) (attempt _) => eapply corr_attempt; exact Grefl
    | |- corr _ _ _ _ _ _ out_of_fuel out_of_fuel => eapply corr_out_of_fuel
    | |- corr _ _ _ _ _ _ (match ?x with _ => _ end) (match ?x with _ => _ end) => destruct x
    | |- corr _ _ _ _ _ _ (let _ := _ in _) (let _ := _ in _) => cbv zeta
    end.
  Ltac cgo := repeat cstep.

  (** *** Whole slices *)
  Section Slices.
    Context {S1 S2 T F E : Type} (v : view P C S1 S2).

    Lemma corr_consume_full_slice : forall (C1 : a_bulk_consumer S1 T F E) C2, corr_consumer env G B N v C1 C2 ->
      forall fuel done buf, co v eq (a_bulk_consume_full_slice_loop fuel C1 done buf) (a_bulk_consume_full_slice_loop fuel C2 done buf).
    Proof.
      intros C1 C2 H. induction fuel as [|fuel IH]; intros done buf; cbn [a_bulk_consume_full_slice_loop]; cgo; try apply H. apply IH.
    Qed.

    Lemma corr_overwrite_full_slice : forall (P1 : a_bulk_producer S1 T F E) P2, corr_producer env G B N v P1 P2 ->
      forall fuel done buf, co v eq (a_bulk_overwrite_full_slice_loop fuel P1 done buf) (a_bulk_overwrite_full_slice_loop fuel P2 done buf).
    Proof.
      intros P1 P2 H. induction fuel as [|fuel IH]; intros done buf; cbn [a_bulk_overwrite_full_slice_loop]; cgo; try apply H. apply IH.
    Qed.
  End Slices.

  (** *** Codecs *)
  Definition corr_encode {V} (encode : a_encode_fn V) : Prop :=
    forall S1 S2 F E (v : view P C S1 S2) (C1 : a_bulk_consumer S1 byte F E) (C2 : a_bulk_consumer S2 byte F E), corr_consumer env G B N v C1 C2 ->
    forall x, co v eq (encode _ _ _ C1 x) (encode _ _ _ C2 x).
  Definition corr_decode {V O} (decode : a_decode_fn V O) : Prop :=
    forall S1 S2 F E (v : view P C S1 S2) (P1 : a_bulk_producer S1 byte F E) (P2 : a_bulk_producer S2 byte F E), corr_producer env G B N v P1 P2 ->
    co v eq (decode _ _ _ P1) (decode _ _ _ P2).

  Lemma corr_endian_encode : forall w, corr_encode (a_endian_encode w).
  Proof. intros w S1 S2 F E v C1 C2 H x. unfold a_endian_encode. cgo. now apply corr_consume_full_slice. Qed.
  Lemma corr_endian_decode : forall w, corr_decode (a_endian_decode w).
  Proof. intros w S1 S2 F E v P1 P2 H. unfold a_endian_decode. cgo. now apply corr_overwrite_full_slice. Qed.

  (** What a pipe needs of its ends. *)
  Definition corr_plain_consumer {S1 S2 T F E} (v : view P C S1 S2) (C1 : a_consumer S1 T F E) (C2 : a_consumer S2 T F E) : Prop :=
    (forall x, co v eq (ac_consume C1 x) (ac_consume C2 x)) /\ (forall f, co v eq (ac_close C1 f) (ac_close C2 f)).
  Definition corr_plain_producer {S1 S2 T F E} (v : view P C S1 S2) (P1 : a_producer S1 T F E) (P2 : a_producer S2 T F E) : Prop :=
    co v eq (ap_produce P1) (ap_produce P2).

  Lemma corr_encoder : forall S1 S2 V F E (v : view P C S1 S2) (encode : a_encode_fn V) (C1 : a_bulk_consumer S1 byte F E) C2, corr_encode encode ->
    corr_consumer env G B N v C1 C2 -> corr_plain_consumer v (a_encoder encode C1) (a_encoder encode C2).
  Proof. intros S1 S2 V F E v encode C1 C2 HE H. split; [intros x; now apply HE|intros f; apply H]. Qed.

  Lemma corr_decoder : forall S1 S2 V O F E (v : view P C S1 S2) (decode : a_decode_fn V O) (P1 : a_bulk_producer S1 byte F E) P2, corr_decode decode ->
    corr_producer env G B N v P1 P2 -> corr_plain_producer v (a_decoder decode P1) (a_decoder decode P2).
  Proof.
    intros S1 S2 V O F E v decode P1 P2 HD H. unfold corr_plain_producer. cbn [a_decoder ap_produce ap_producer]. unfold a_decoder_produce. cgo; [apply H|now apply HD].
  Qed.

  (** *** States with a part that no one else can change *)
  Definition fst_view {S1 S2 : Type} (L : Type) (v : view P C S1 S2) : view P C (S1 * L) (S2 * L) :=
    mk_view (fun sc s1 s2 => v_rel v sc (fst s1) (fst s2) /\ snd s1 = snd s2) (fun s => v_end v (fst s)) (fun p s => (v_set v p (fst s), snd s)).
  Definition snd_view {S1 S2 : Type} (L : Type) (v : view P C S1 S2) : view P C (L * S1) (L * S2) :=
    mk_view (fun sc s1 s2 => v_rel v sc (snd s1) (snd s2) /\ fst s1 = fst s2) (fun s => v_end v (snd s)) (fun p s => (fst s, v_set v p (snd s))).

  Section Local.
    Context {S1 S2 L : Type} (v : view P C S1 S2).

    Lemma corr_on_fst : forall X (f1 : fut S1 X) (f2 : fut S2 X), co v eq f1 f2 -> co (fst_view L v) eq (on_fst f1) (on_fst f2).
    Proof.
      intros X f1 f2 H. unfold on_fst. eapply corr_within; [|exact H]. constructor; try reflexivity.
      - intros sc s1 s2 [A _]. exact A.
      - intros sc sc' s1 s2 i1 i2 [_ A] D. split; [exact D|exact A].
    Qed.
    Lemma corr_on_snd : forall X (f1 : fut S1 X) (f2 : fut S2 X), co v eq f1 f2 -> co (snd_view L v) eq (on_snd f1) (on_snd f2).
    Proof.
      intros X f1 f2 H. unfold on_snd. eapply corr_within; [|exact H]. constructor; try reflexivity.
      - intros sc s1 s2 [A _]. exact A.
      - intros sc sc' s1 s2 i1 i2 [_ A] D. split; [exact D|exact A].
    Qed.

    (** A part that never waits. *)
    Lemma corr_local_snd : forall X (f : fut L X), pending_only (fun _ => False) f -> co (fst_view L v) eq (on_snd f) (on_snd f).
    Proof.
      intros X f H. destruct N as [|n]; [exact Logic.I|]. intros sc [a1 l1] [a2 l2] [HR HL]. cbn in HR, HL. subst l2.
      unfold on_snd. rewrite !poll_within. cbn [snd fst]. destruct f as [p]. specialize (H l1). cbn [poll].
      destruct (p l1) as [[l' [x|w k]]| |]; try reflexivity; [|destruct H as [[] _]].
      split; [apply Grefl|]. eexists _, _. split; [reflexivity|]. split; [reflexivity|]. split; [exact HR|reflexivity].
    Qed.
    Lemma corr_local_fst : forall X (f : fut L X), pending_only (fun _ => False) f -> co (snd_view L v) eq (on_fst f) (on_fst f).
    Proof.
      intros X f H. destruct N as [|n]; [exact Logic.I|]. intros sc [l1 a1] [l2 a2] [HR HL]. cbn in HR, HL. subst l2.
      unfold on_fst. rewrite !poll_within. cbn [snd fst]. destruct f as [p]. specialize (H l1). cbn [poll].
      destruct (p l1) as [[l' [x|w k]]| |]; try reflexivity; [|destruct H as [[] _]].
      split; [apply Grefl|]. eexists _, _. split; [reflexivity|]. split; [reflexivity|]. split; [exact HR|reflexivity].
    Qed.
  End Local.

  (** *** Pipes *)
  Section Pipes.
    Context {S1 S2 L T F PE CE : Type} (v : view P C S1 S2).

    Lemma corr_pipe_into : forall (Q : a_producer L T F PE) (C1 : a_consumer S1 T F CE) C2, producer_pending (fun _ => False) Q -> corr_plain_consumer v C1 C2 ->
      forall fuel, co (snd_view L v) eq (a_pipe fuel Q C1) (a_pipe fuel Q C2).
    Proof.
      intros Q C1 C2 HQ [H1 H2]. induction fuel as [|fuel IH]; cbn [a_pipe]; [cgo|].
      cgo; try (apply corr_local_fst; exact HQ); try (apply corr_on_snd; auto); exact IH.
    Qed.

    Lemma corr_bulk_pipe_into : forall (Q : a_bulk_producer L T F PE) (C1 : a_bulk_consumer S1 T F CE) C2, bulk_producer_pending (fun _ => False) Q ->
      corr_consumer env G B N v C1 C2 -> forall fuel, co (snd_view L v) eq (a_bulk_pipe fuel Q C1) (a_bulk_pipe fuel Q C2).
    Proof.
      intros Q C1 C2 (_ & HQ1 & HQ2 & _) (H1 & H2 & _ & _ & _ & _ & H3). induction fuel as [|fuel IH]; cbn [a_bulk_pipe]; [cgo|].
      cgo; try (apply corr_local_fst; auto); try (apply corr_on_snd; auto); exact IH.
    Qed.

    Lemma corr_pipe_from : forall (Q : a_consumer L T F CE) (P1 : a_producer S1 T F PE) P2, consumer_pending (fun _ => False) Q -> corr_plain_producer v P1 P2 ->
      forall fuel, co (fst_view L v) eq (a_pipe fuel P1 Q) (a_pipe fuel P2 Q).
    Proof.
      intros Q P1 P2 [HQ1 HQ2] H. induction fuel as [|fuel IH]; cbn [a_pipe]; [cgo|].
      cgo; try (apply corr_local_snd; auto); try (apply corr_on_fst; exact H); exact IH.
    Qed.

    Lemma corr_bulk_pipe_from : forall (Q : a_bulk_consumer L T F CE) (P1 : a_bulk_producer S1 T F PE) P2, bulk_consumer_pending (fun _ => False) Q ->
      corr_producer env G B N v P1 P2 -> forall fuel, co (fst_view L v) eq (a_bulk_pipe fuel P1 Q) (a_bulk_pipe fuel P2 Q).
    Proof.
      intros Q P1 P2 (((_ & HQ2) & _) & _ & _ & HQ3) (H1 & H2 & H3 & H4 & H5). induction fuel as [|fuel IH]; cbn [a_bulk_pipe]; [cgo|].
      cgo; try (apply corr_local_snd; auto); try (apply corr_on_fst; auto); exact IH.
    Qed.

    Lemma corr_piping_into : forall how (Q : a_bulk_producer L T F PE) (C1 : a_bulk_consumer S1 T F CE) C2, bulk_producer_pending (fun _ => False) Q ->
      corr_consumer env G B N v C1 C2 -> forall fuel, co (snd_view L v) eq (piping how fuel Q C1) (piping how fuel Q C2).
    Proof.
      intros [|] Q C1 C2 HQ H fuel; cbn [piping]; [|now apply corr_bulk_pipe_into]. apply corr_pipe_into; [apply HQ|]. destruct H as (H1 & H2 & _). now split.
    Qed.
    Lemma corr_piping_from : forall how (Q : a_bulk_consumer L T F CE) (P1 : a_bulk_producer S1 T F PE) P2, bulk_consumer_pending (fun _ => False) Q ->
      corr_producer env G B N v P1 P2 -> forall fuel, co (fst_view L v) eq (piping how fuel P1 Q) (piping how fuel P2 Q).
    Proof.
      intros [|] Q P1 P2 HQ H fuel; cbn [piping]; [|now apply corr_bulk_pipe_from]. apply corr_pipe_from; [apply HQ|]. apply H.
    Qed.
  End Pipes.

  Lemma corr_collect : forall S1 S2 V E (HV : eq_dec V) (v : view P C S1 S2) (f1 : fut (S1 * into_vec V) (res unit E)) f2 expected,
    co (fst_view (into_vec V) v) eq f1 f2 -> co (fst_view (into_vec V) v) eq (collect f1 expected) (collect f2 expected).
  Proof.
    intros S1 S2 V E HV v f1 f2 expected H. unfold collect. cstep; [exact H|]. cstep; [cgo|].
    eapply corr_await; [exact Gtrans|eapply corr_get; exact Grefl|]. intros s1 s2 [sc [_ ->]]. cgo.
  Qed.
End Code.

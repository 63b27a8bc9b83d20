(** When futures return [Pending]. *)
From Coq Require Import Bool List Arith Lia.
From Coq.Init Require Import Byte.
From Verif Require Import Prelude QueueModel Traits BasicModel AdaptorModel ScramblerModel CodecModel EndianModel SliceModel.
From Verif Require Import AsyncModel AsyncAdaptorModel AsyncSpec AsyncProofs.
Import ListNotations.

(** ** Only in the way that the fields do *)
Ltac po := intros; repeat first
  [ assumption | apply po_await; [|intros] | apply po_sync | apply po_within
  | match goal with |- pending_only _ (match ?x with _ => _ end) => destruct x end
  | progress cbv zeta ].

Section Pending.
  Variable Q : bool -> Prop.

  Section Defaults.
    Context {S T F E : Type}.

    Lemma po_bulk_produce : forall (expose : fut S (res (list T + F) E)) consider buf,
      pending_only Q expose -> (forall n, pending_only Q (consider n)) -> pending_only Q (a_bulk_produce expose consider buf).
    Proof. intros expose consider buf H1 H2. unfold a_bulk_produce. po. apply H2. Qed.
    Lemma po_bulk_consume : forall (expose : fut S (res nat E)) (write : list T -> S -> S) slots buf,
      pending_only Q expose -> (forall n, pending_only Q (slots n)) -> pending_only Q (a_bulk_consume expose write slots buf).
    Proof. intros expose write slots buf H1 H2. unfold a_bulk_consume. po. apply H2. Qed.

    Lemma pending_bulk_producer_of : forall produce slurp expose consider,
      pending_only Q produce -> pending_only Q slurp -> pending_only Q expose -> (forall n, pending_only Q (consider n)) ->
      bulk_producer_pending Q (@a_bulk_producer_of S T F E produce slurp expose consider).
    Proof. intros produce slurp expose consider H1 H2 H3 H4. split; [split; assumption|]. split; [assumption|]. split; [assumption|]. intros buf. now apply po_bulk_produce. Qed.
    Lemma pending_bulk_consumer_of : forall consume close flush expose write slots,
      (forall x, pending_only Q (consume x)) -> (forall f, pending_only Q (close f)) -> pending_only Q flush -> pending_only Q expose ->
      (forall n, pending_only Q (slots n)) ->
      bulk_consumer_pending Q (@a_bulk_consumer_of S T F E consume close flush expose write slots).
    Proof. intros consume close flush expose write slots H1 H2 H3 H4 H5. split; [split; [split|]; assumption|]. split; [assumption|]. split; [assumption|]. intros buf. now apply po_bulk_consume. Qed.

    Lemma po_consume_full_slice : forall (C : a_consumer S T F E), consumer_pending Q C -> forall buf i, pending_only Q (a_consume_full_slice_from C i buf).
    Proof. intros C [H1 H2]. induction buf as [|x buf IH]; intros i; cbn [a_consume_full_slice_from]; po; [apply H1|apply IH]. Qed.
    Lemma po_bulk_consume_full_slice : forall (C : a_bulk_consumer S T F E), bulk_consumer_pending Q C ->
      forall fuel i buf, pending_only Q (a_bulk_consume_full_slice_loop fuel C i buf).
    Proof. intros C [_ [_ [_ H]]]. induction fuel as [|fuel IH]; intros i buf; cbn [a_bulk_consume_full_slice_loop]; po; [apply H|apply IH]. Qed.
    Lemma po_produce_item : forall (P : a_producer S T F E), producer_pending Q P -> pending_only Q (a_produce_item P).
    Proof. intros P H. unfold a_produce_item. po. Qed.
    Lemma po_overwrite_full_slice : forall (P : a_producer S T F E), producer_pending Q P ->
      forall todo i buf, pending_only Q (a_overwrite_full_slice_from P todo i buf).
    Proof. intros P H. induction todo as [|todo IH]; intros i buf; cbn [a_overwrite_full_slice_from]; po. apply IH. Qed.
    Lemma po_bulk_overwrite_full_slice : forall (P : a_bulk_producer S T F E), bulk_producer_pending Q P ->
      forall fuel i buf, pending_only Q (a_bulk_overwrite_full_slice_loop fuel P i buf).
    Proof. intros P [_ [_ [_ H]]]. induction fuel as [|fuel IH]; intros i buf; cbn [a_bulk_overwrite_full_slice_loop]; po; [apply H|apply IH]. Qed.
  End Defaults.

  Section Pipes.
    Context {SP SC T F PE CE : Type}.
    Lemma po_pipe : forall (P : a_producer SP T F PE) (C : a_consumer SC T F CE), producer_pending Q P -> consumer_pending Q C ->
      forall fuel, pending_only Q (a_pipe fuel P C).
    Proof. intros P C HP [H1 H2]. induction fuel as [|fuel IH]; cbn [a_pipe]; po; [apply H1|apply H2]. Qed.
    Lemma po_pipe_at_most : forall (P : a_producer SP T F PE) (C : a_consumer SC T F CE), producer_pending Q P -> consumer_pending Q C ->
      forall todo piped, pending_only Q (a_pipe_at_most_loop todo P C piped).
    Proof. intros P C HP [H1 H2]. induction todo as [|todo IH]; intros piped; cbn [a_pipe_at_most_loop]; po; [apply H1|apply IH|apply H2]. Qed.
    Lemma po_bulk_pipe : forall (P : a_bulk_producer SP T F PE) (C : a_bulk_consumer SC T F CE), bulk_producer_pending Q P -> bulk_consumer_pending Q C ->
      forall fuel, pending_only Q (a_bulk_pipe fuel P C).
    Proof. intros P C (_ & H1 & H2 & _) ([[_ H3] _] & _ & _ & H4). induction fuel as [|fuel IH]; cbn [a_bulk_pipe]; po; [apply H4|apply H2|apply H3]. Qed.
    Lemma po_bulk_pipe_at_most : forall (P : a_bulk_producer SP T F PE) (C : a_bulk_consumer SC T F CE),
      bulk_producer_pending Q P -> bulk_consumer_pending Q C -> forall count fuel piped, pending_only Q (a_bulk_pipe_at_most_loop fuel P C count piped).
    Proof.
      intros P C (_ & H1 & H2 & _) ([[_ H3] _] & _ & _ & H4) count. induction fuel as [|fuel IH]; intros piped; cbn [a_bulk_pipe_at_most_loop]; po;
        [apply H4|apply H2|apply IH|apply H3].
    Qed.
  End Pipes.

  Section Adaptors.
    Context {S T F E : Type}.
    Lemma pending_limit_producer : forall P : a_bulk_producer S T F E, bulk_producer_pending Q P -> bulk_producer_pending Q (a_limit_producer P).
    Proof.
      intros P ([H1 H2] & H3 & H4 & H5). apply pending_bulk_producer_of; intros;
        unfold a_limit_produce, a_limit_slurp, a_limit_expose, a_limit_consider, a_lim; po. apply H4.
    Qed.
    Lemma pending_limit_consumer : forall C : a_bulk_consumer S T F E, bulk_consumer_pending Q C -> bulk_consumer_pending Q (a_limit_consumer C).
    Proof.
      intros C ([[H1 H2] H3] & H4 & H5 & H6). apply pending_bulk_consumer_of; intros;
        unfold a_limit_consume, a_limit_close, a_limit_flush, a_limit_expose_slots, a_limit_consume_slots, a_lim; po; auto.
    Qed.
    Lemma pending_map_item_producer : forall U W (P : a_buffered_producer S T F E) (f : W -> T -> W * U),
      buffered_producer_pending Q P -> buffered_producer_pending Q (a_map_item_producer P f).
    Proof. intros U W P f [H1 H2]. split; unfold producer_pending; cbn -[await within]; unfold a_map_item_produce, a_mi; po. Qed.
    Lemma pending_map_item_consumer : forall U W (C : a_buffered_consumer S T F E) (f : W -> U -> W * T),
      buffered_consumer_pending Q C -> buffered_consumer_pending Q (a_map_item_consumer C f).
    Proof. intros U W C f [[H1 H2] H3]. split; [split|]; intros; cbn -[await within]; unfold a_map_item_consume, a_mi; po; auto. Qed.
    Lemma pending_map_final_producer : forall B (P : a_bulk_producer S T F E), bulk_producer_pending Q P -> bulk_producer_pending Q (a_map_final_producer (B := B) P).
    Proof.
      intros B P ([H1 H2] & H3 & H4 & H5). apply pending_bulk_producer_of; intros; unfold a_map_final_call, a_take_fun, a_wf; po. apply H4.
    Qed.
    Lemma pending_map_final_consumer : forall B (C : a_bulk_consumer S T F E), bulk_consumer_pending Q C -> bulk_consumer_pending Q (a_map_final_consumer (B := B) C).
    Proof.
      intros B C ([[H1 H2] H3] & H4 & H5 & H6). apply pending_bulk_consumer_of; intros; unfold a_map_final_close, a_take_fun, a_wf; po; auto.
    Qed.
    Lemma pending_map_error_producer : forall B (P : a_bulk_producer S T F E), bulk_producer_pending Q P -> bulk_producer_pending Q (a_map_error_producer (B := B) P).
    Proof.
      intros B P ([H1 H2] & H3 & H4 & H5). apply pending_bulk_producer_of; intros; unfold a_map_error_call, a_take_fun, a_wf; po. apply H4.
    Qed.
    Lemma pending_map_error_consumer : forall B (C : a_bulk_consumer S T F E), bulk_consumer_pending Q C -> bulk_consumer_pending Q (a_map_error_consumer (B := B) C).
    Proof.
      intros B C ([[H1 H2] H3] & H4 & H5 & H6). apply pending_bulk_consumer_of; intros; unfold a_map_error_call, a_take_fun, a_wf; po; auto.
    Qed.
    Lemma pending_invariant_producer : forall P : a_bulk_producer S T F E, bulk_producer_pending Q P -> bulk_producer_pending Q (a_invariant_producer P).
    Proof.
      intros P ([H1 H2] & H3 & H4 & H5). apply pending_bulk_producer_of; intros;
        unfold a_invariant_produce, a_invariant_unit, a_invariant_expose, a_invariant_consider, a_check_inactive, a_deactivate, a_count_exposed, a_inv; po; auto.
    Qed.
    Lemma pending_invariant_consumer : forall C : a_bulk_consumer S T F E, bulk_consumer_pending Q C -> bulk_consumer_pending Q (a_invariant_consumer C).
    Proof.
      intros C ([[H1 H2] H3] & H4 & H5 & H6). apply pending_bulk_consumer_of; intros;
        unfold a_invariant_unit, a_invariant_close, a_invariant_expose_slots, a_invariant_consume_slots, a_check_inactive, a_deactivate, a_count_exposed, a_inv; po; auto.
    Qed.
  End Adaptors.

  Section Scramblers.
    Context {S T F E : Type} (dbg : bool).
    Lemma po_pscr_perform : forall P : a_bulk_producer S T F E, bulk_producer_pending Q P -> pending_only Q (a_pscr_perform_operation dbg P).
    Proof. intros P ([H1 H2] & H3 & H4 & H5). unfold a_pscr_perform_operation, a_ps_advance, a_ps. po. apply H4. Qed.
    Lemma po_pscr_fill_queue : forall P : a_bulk_producer S T F E, bulk_producer_pending Q P -> forall fuel, pending_only Q (a_pscr_fill_queue dbg fuel P).
    Proof.
      intros P H fuel. pose proof (po_pscr_perform P H) as H0. unfold a_pscr_fill_queue, a_ps_set_last. apply po_await; [|po]. induction fuel as [|fuel IH]; cbn [a_pscr_fill_loop]; unfold a_ps_set_last; po.
    Qed.
    Lemma pending_pscr : forall fuel (P : a_bulk_producer S T F E), bulk_producer_pending Q P -> bulk_producer_pending Q (a_pscr_producer dbg fuel P).
    Proof.
      intros fuel P H. pose proof (po_pscr_fill_queue P H fuel) as H0. destruct H as ([H1 H2] & H3 & H4 & H5). apply pending_bulk_producer_of; intros;
        unfold a_pscr_produce, a_pscr_slurp, a_pscr_expose, a_ps_set_last, a_ps; po.
    Qed.
    Variable d : T.
    Lemma po_cscr_drain : forall C : a_bulk_consumer S T F E, bulk_consumer_pending Q C -> forall fuel, pending_only Q (a_cscr_drain dbg d fuel C).
    Proof.
      intros C ([[H1 H2] H3] & H4 & H5 & H6). induction fuel as [|fuel IH]; cbn [a_cscr_drain]; unfold a_cscr_perform_operation, a_cs; po; auto.
    Qed.
    Lemma pending_cscr : forall fuel (C : a_bulk_consumer S T F E), bulk_consumer_pending Q C -> bulk_consumer_pending Q (a_cscr_consumer dbg d fuel C).
    Proof.
      intros fuel C H. pose proof (po_cscr_drain C H fuel) as H0. destruct H as ([[H1 H2] H3] & H4 & H5 & H6). apply pending_bulk_consumer_of; intros;
        unfold a_cscr_consume, a_cscr_close, a_cscr_flush, a_cscr_expose, a_cs_enqueue, a_cs_expose_slots, a_cs; po; auto.
    Qed.
  End Scramblers.

  Lemma pending_from_slice : forall T, bulk_producer_pending Q (@a_from_slice T).
  Proof. intros T. apply pending_bulk_producer_of; po. Qed.
  Lemma pending_empty : forall T F E, bulk_producer_pending Q (@a_empty T F E).
  Proof. intros T F E. apply pending_bulk_producer_of; po. Qed.
  Lemma pending_into_vec : forall T (d : T), bulk_consumer_pending Q (a_into_vec d).
  Proof. intros T d. apply pending_bulk_consumer_of; po. Qed.
  Lemma pending_into_slice : forall T, bulk_consumer_pending Q (@a_into_slice T).
  Proof. intros T. apply pending_bulk_consumer_of; po. Qed.

  Section Codecs.
    Context {S F E V O RT : Type}.
    Lemma pending_encoder : forall (e : a_encode_fn V) (C : a_bulk_consumer S byte F E), encode_pending e ->
      bulk_consumer_pending Q C -> buffered_consumer_pending Q (a_encoder e C).
    Proof. intros e C He H. pose proof H as ([[H1 H2] H3] & H4 & H5 & H6). split; [split|]; cbn; intros; auto. Qed.
    Lemma po_decoder : forall (e : a_decode_fn V O) (P : a_bulk_producer S byte F E), decode_pending e ->
      bulk_producer_pending Q P -> pending_only Q (a_decoder_produce e P).
    Proof. intros e P He H. pose proof H as ([H1 H2] & H3 & H4 & H5). unfold a_decoder_produce. po. now apply He. Qed.
    Lemma pending_decoder : forall (e : a_decode_fn V O) (P : a_bulk_producer S byte F E), decode_pending e ->
      bulk_producer_pending Q P -> buffered_producer_pending Q (a_decoder e P).
    Proof.
      intros e P He H. pose proof H as ([H1 H2] & H3 & H4 & H5). split; [now apply po_decoder|]. cbn -[await within]. unfold a_decoder_slurp. po.
    Qed.
    Lemma pending_relative_encoder : forall (e : RT -> a_encode_fn V) (C : a_bulk_consumer S byte F E), (forall r, encode_pending (e r)) ->
      bulk_consumer_pending Q C -> buffered_consumer_pending Q (a_relative_encoder e C).
    Proof.
      intros e C He H. pose proof H as ([[H1 H2] H3] & H4 & H5 & H6). split; [split|]; cbn -[await within]; unfold a_rel; po; auto; now apply He.
    Qed.
    Lemma pending_relative_decoder : forall (e : RT -> a_decode_fn V O) (P : a_bulk_producer S byte F E), (forall r, decode_pending (e r)) ->
      bulk_producer_pending Q P -> buffered_producer_pending Q (a_relative_decoder e P).
    Proof.
      intros e P He H. pose proof H as ([H1 H2] & H3 & H4 & H5). split; [unfold producer_pending|]; cbn -[await within]; unfold a_rel, a_decoder_slurp; po.
      now apply He.
    Qed.
  End Codecs.
End Pending.

Lemma endian_encode_pending : forall w, encode_pending (a_endian_encode w).
Proof. intros w Q S F E C H v. unfold a_endian_encode, a_bulk_consume_full_slice. po. now apply po_bulk_consume_full_slice. Qed.
Lemma endian_decode_pending : forall w, decode_pending (a_endian_decode w).
Proof. intros w Q S F E P H. unfold a_endian_decode, a_bulk_overwrite_full_slice. po. now apply po_bulk_overwrite_full_slice. Qed.

(** *** The test objects return [Pending] only after calling the waker *)
Lemma po_yield_polls : forall n, pending_only (eq true) (a_yield_polls n).
Proof. induction n as [|n IH]; cbn; intros s; [exact I|]. destruct (yielder_poll s) as [[y [|]]| |]; try exact I. split; [reflexivity|exact IH]. Qed.
Lemma po_maybe_yield : pending_only (eq true) a_maybe_yield.
Proof. unfold a_maybe_yield, a_yielder_maybe_yield. po. apply po_yield_polls. Qed.
Lemma pending_test_producer : forall T F E, bulk_producer_pending (eq true) (@a_test_producer T F E).
Proof.
  intros T F E. pose proof po_maybe_yield as HY. apply pending_bulk_producer_of; intros;
    unfold a_test_producer_produce, a_test_producer_slurp, a_test_producer_expose, a_test_producer_consider, a_tp_maybe_yield, a_tp_inner; po.
Qed.
Lemma pending_test_consumer : forall T F E (d : T), bulk_consumer_pending (eq true) (@a_test_consumer T F E d).
Proof.
  intros T F E d. pose proof po_maybe_yield as HY. apply pending_bulk_consumer_of; intros;
    unfold a_test_consumer_consume, a_test_consumer_close, a_test_consumer_flush, a_test_consumer_expose, a_test_consumer_consume_slots,
      a_tc_maybe_yield, a_tc_inner, a_tc_count; po.
Qed.

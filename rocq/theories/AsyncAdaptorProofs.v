(** The asynchronous adaptors, scramblers and codecs, run to completion. *)
From Coq Require Import Bool List Arith Lia.
From Coq.Init Require Import Byte.
From Verif Require Import Prelude QueueModel Traits BasicModel AdaptorModel ScramblerModel CodecModel EndianModel SliceModel.
From Verif Require Import AsyncModel AsyncAdaptorModel AsyncSpec AsyncProofs.
Import ListNotations.

Ltac blk := cbn [blocking_bulk_producer blocking_buffered_producer blocking_producer p_produce p_slurp p_expose p_consider p_bulk_produce p_producer p_buffered
  blocking_bulk_consumer blocking_buffered_consumer blocking_consumer c_consume c_close c_flush c_expose c_write c_consume_slots c_bulk_consume c_consumer c_buffered].
Ltac rcb := cbn [bind lim_inner lim_remaining mi_inner mi_closure wf_inner wf_fun inv_inner inv_active inv_exposed map_err expect
  rel_inner relative_to].
Ltac radapt := blk; repeat first [progress rcb | reflexivity | rstep | rmatch | rdes].

Section RunAdaptors.
  Context {S T F E : Type}.

  Lemma same_limit_producer : forall P : a_bulk_producer S T F E,
    same_bulk_producer (blocking_bulk_producer (a_limit_producer P)) (limit_producer (blocking_bulk_producer P)).
  Proof.
    intros P. apply same_bulk_producer_of; intros.
    - unfold a_limit_produce, limit_produce, a_lim. destruct s as [i [|n]]; radapt.
    - unfold a_limit_slurp, limit_slurp, a_lim. radapt.
    - unfold a_limit_expose, limit_expose, a_lim. radapt.
    - unfold a_limit_consider, limit_consider, a_lim. radapt.
  Qed.

  Lemma same_limit_consumer : forall C : a_bulk_consumer S T F E,
    same_bulk_consumer (blocking_bulk_consumer (a_limit_consumer C)) (limit_consumer (blocking_bulk_consumer C)).
  Proof.
    intros C. apply same_bulk_consumer_of; intros; [| | | |reflexivity|].
    - unfold a_limit_consume, limit_consume, a_lim. destruct s as [i [|n]]; radapt.
    - unfold a_limit_close, limit_close, a_lim. radapt.
    - unfold a_limit_flush, limit_flush, a_lim. radapt.
    - unfold a_limit_expose_slots, limit_expose_slots, a_lim. radapt.
    - unfold a_limit_consume_slots, limit_consume_slots, a_lim. radapt.
  Qed.

  Lemma same_map_item_producer : forall {U W} (P : a_buffered_producer S T F E) (f : W -> T -> W * U),
    same_buffered_producer (blocking_buffered_producer (a_map_item_producer P f)) (map_item_producer (blocking_buffered_producer P) f).
  Proof.
    intros U W P f. split; intros s; cbn -[a_map_item_produce map_item_produce].
    - unfold a_map_item_produce, map_item_produce, a_mi. radapt.
    - unfold map_item_slurp, a_mi. radapt.
  Qed.

  Lemma same_map_item_consumer : forall {U W} (C : a_buffered_consumer S T F E) (f : W -> U -> W * T),
    same_buffered_consumer (blocking_buffered_consumer (a_map_item_consumer C f)) (map_item_consumer (blocking_buffered_consumer C) f).
  Proof.
    intros U W C f. split; [split|]; intros; cbn -[a_map_item_consume map_item_consume].
    - unfold a_map_item_consume, map_item_consume, a_mi. radapt.
    - unfold map_item_close, a_mi. radapt.
    - unfold map_item_flush, a_mi. radapt.
  Qed.

  Lemma same_map_final_producer : forall {B} (P : a_bulk_producer S T F E),
    same_bulk_producer (blocking_bulk_producer (a_map_final_producer P)) (map_final_producer (B := B) (blocking_bulk_producer P)).
  Proof.
    intros B P. apply same_bulk_producer_of; intros.
    - unfold a_map_final_call, map_final_produce, map_final_result, a_wf, a_take_fun. radapt.
    - unfold map_final_slurp, a_wf. radapt.
    - unfold a_map_final_call, map_final_expose, map_final_result, a_wf, a_take_fun. radapt.
    - unfold map_final_consider, a_wf. radapt.
  Qed.

  Lemma same_map_final_consumer : forall {B} (C : a_bulk_consumer S T F E),
    same_bulk_consumer (blocking_bulk_consumer (a_map_final_consumer C)) (map_final_consumer (B := B) (blocking_bulk_consumer C)).
  Proof.
    intros B C. apply same_bulk_consumer_of; intros; [| | | |reflexivity|].
    - unfold map_final_consume, a_wf. radapt.
    - unfold a_map_final_close, map_final_close, a_wf, a_take_fun. radapt.
    - unfold map_final_flush, a_wf. radapt.
    - unfold map_final_expose_slots, a_wf. radapt.
    - unfold map_final_consume_slots, a_wf. radapt.
  Qed.

  Lemma run_map_error_call : forall {B X} (call : fut S (res X E)) s,
    run (a_map_error_call call) s = map_error_call (B := B) (run call) s.
  Proof. intros B X call s. unfold a_map_error_call, map_error_call, a_wf, a_take_fun. radapt. Qed.

  Lemma same_map_error_producer : forall {B} (P : a_bulk_producer S T F E),
    same_bulk_producer (blocking_bulk_producer (a_map_error_producer P)) (map_error_producer (B := B) (blocking_bulk_producer P)).
  Proof. intros B P. apply same_bulk_producer_of; intros; apply run_map_error_call. Qed.

  Lemma same_map_error_consumer : forall {B} (C : a_bulk_consumer S T F E),
    same_bulk_consumer (blocking_bulk_consumer (a_map_error_consumer C)) (map_error_consumer (B := B) (blocking_bulk_consumer C)).
  Proof. intros B C. apply same_bulk_consumer_of; intros; try apply run_map_error_call. reflexivity. Qed.

  Lemma same_invariant_producer : forall P : a_bulk_producer S T F E,
    same_bulk_producer (blocking_bulk_producer (a_invariant_producer P)) (invariant_producer (blocking_bulk_producer P)).
  Proof.
    intros P. apply same_bulk_producer_of; intros.
    - unfold a_invariant_produce, invariant_produce, inv_check, a_check_inactive, a_deactivate, a_inv. destruct s as [i act exp]. radapt.
    - unfold a_invariant_unit, invariant_slurp, inv_check, a_check_inactive, a_deactivate, a_inv. destruct s as [i act exp]. radapt.
    - unfold a_invariant_expose, invariant_expose, inv_check, a_check_inactive, a_deactivate, a_inv. destruct s as [i act exp]. radapt.
    - unfold a_invariant_consider, invariant_consider, inv_check, a_check_inactive, a_count_exposed, a_inv. destruct s as [i act exp]. radapt.
  Qed.

  Lemma same_invariant_consumer : forall C : a_bulk_consumer S T F E,
    same_bulk_consumer (blocking_bulk_consumer (a_invariant_consumer C)) (invariant_consumer (blocking_bulk_consumer C)).
  Proof.
    intros C. apply same_bulk_consumer_of; intros; [| | | |reflexivity|].
    - unfold a_invariant_unit, invariant_consume, inv_check, a_check_inactive, a_deactivate, a_inv. destruct s as [i act exp]. radapt.
    - unfold a_invariant_close, invariant_close, inv_check, a_check_inactive, a_deactivate, a_inv. destruct s as [i act exp]. radapt.
    - unfold a_invariant_unit, invariant_flush, inv_check, a_check_inactive, a_deactivate, a_inv. destruct s as [i act exp]. radapt.
    - unfold a_invariant_expose_slots, invariant_expose_slots, inv_check, a_check_inactive, a_deactivate, a_inv. destruct s as [i act exp]. radapt.
    - unfold a_invariant_consume_slots, invariant_consume_slots, inv_check, a_check_inactive, a_count_exposed, a_inv. destruct s as [i act exp]. radapt.
  Qed.
End RunAdaptors.

Ltac rscr := blk; repeat first [progress (cbn [bind ps_inner ps_buffer ps_last ps_operations ps_index ps_with_inner ps_with_buffer ps_with_last
    cs_inner cs_buffer cs_operations cs_index cs_with_inner cs_with_buffer]) | reflexivity | rstep | rmatch | rdes].

Section RunProducerScrambler.
  Context {S T F E : Type} (dbg : bool).
  Notation state := (pscr S T F E).

  Lemma run_pscr_perform : forall (P : a_bulk_producer S T F E) (s : state),
    run (a_pscr_perform_operation dbg P) s = pscr_perform_operation dbg (blocking_bulk_producer P) s.
  Proof.
    intros P s. unfold a_pscr_perform_operation, pscr_perform_operation, a_ps, a_ps_advance, debug_assert, pscr_advance. rscr.
  Qed.

  Lemma run_pscr_fill_loop : forall (P : a_bulk_producer S T F E) fuel (s : state),
    run (a_pscr_fill_loop dbg fuel P) s = let* s := pscr_fill_loop dbg fuel (blocking_bulk_producer P) s in Ret (s, tt).
  Proof.
    intros P. induction fuel as [|fuel IH]; intros s; [reflexivity|]. cbn [a_pscr_fill_loop pscr_fill_loop].
    rstep. rstep. cbn [bind]. destruct (ps_last s); [reflexivity|]. destruct (_ <? _); [|reflexivity].
    rstep. rewrite run_pscr_perform. destruct (pscr_perform_operation _ _ _) as [[s1 [[fin|]|err]]| |]; cbn [bind]; try reflexivity.
    - rstep. unfold a_ps_set_last. rstep. cbn [bind]. apply IH.
    - apply IH.
    - rstep. unfold a_ps_set_last. rstep. cbn [bind]. apply IH.
  Qed.

  Lemma run_pscr_fill_queue : forall (P : a_bulk_producer S T F E) fuel (s : state),
    run (a_pscr_fill_queue dbg fuel P) s = pscr_fill_queue dbg fuel (blocking_bulk_producer P) s.
  Proof.
    intros P fuel s. unfold a_pscr_fill_queue, pscr_fill_queue. rstep. rewrite run_pscr_fill_loop.
    destruct (pscr_fill_loop _ _ _ _) as [s1| |]; cbn [bind]; try reflexivity. rstep. rstep. cbn [bind]. destruct (_ =? _); reflexivity.
  Qed.

  Lemma same_pscr_producer : forall fuel (P : a_bulk_producer S T F E),
    same_bulk_producer (blocking_bulk_producer (a_pscr_producer dbg fuel P)) (pscr_producer dbg fuel (blocking_bulk_producer P)).
  Proof.
    intros fuel P. apply same_bulk_producer_of.
    - intros s. unfold a_pscr_produce, pscr_produce. rstep. rewrite run_pscr_fill_queue.
      destruct (pscr_fill_queue _ _ _ _) as [[s1 [[f|e]|]]| |]; cbn [bind]; try reflexivity. rscr.
    - intros s. unfold a_pscr_slurp, pscr_slurp. rstep. rewrite run_pscr_fill_queue.
      destruct (pscr_fill_queue _ _ _ _) as [[s1 [[f|e]|]]| |]; cbn [bind]; try reflexivity.
      + unfold a_ps_set_last, pscr_slurp_inner, a_ps. rscr.
      + unfold a_ps_set_last, pscr_slurp_inner, a_ps. rscr.
    - intros s. unfold a_pscr_expose, pscr_expose. rstep. rewrite run_pscr_fill_queue.
      destruct (pscr_fill_queue _ _ _ _) as [[s1 [[f|e]|]]| |]; cbn [bind]; try reflexivity. rscr.
    - intros n s. apply run_sync.
  Qed.
End RunProducerScrambler.

Section RunConsumerScrambler.
  Context {S T F E : Type} (dbg : bool) (d : T).
  Notation state := (cscr S T).

  Lemma run_cscr_perform : forall (C : a_bulk_consumer S T F E) (s : state),
    run (a_cscr_perform_operation dbg d C) s = cscr_perform_operation dbg d (blocking_bulk_consumer C) s.
  Proof.
    intros C s. unfold a_cscr_perform_operation, cscr_perform_operation, a_cs, debug_assert, cscr_advance. rscr.
  Qed.

  Lemma run_cscr_drain : forall (C : a_bulk_consumer S T F E) fuel (s : state),
    run (a_cscr_drain dbg d fuel C) s = cscr_drain dbg d fuel (blocking_bulk_consumer C) s.
  Proof.
    intros C. induction fuel as [|fuel IH]; intros s; [reflexivity|]. cbn [a_cscr_drain cscr_drain].
    rstep. rstep. cbn [bind]. destruct (_ <? _); [|reflexivity].
    rstep. rewrite run_cscr_perform. destruct (cscr_perform_operation _ _ _ _) as [[s1 [[]|e]]| |]; cbn [bind]; try reflexivity. apply IH.
  Qed.

  Lemma same_cscr_consumer : forall fuel (C : a_bulk_consumer S T F E),
    same_bulk_consumer (blocking_bulk_consumer (a_cscr_consumer dbg d fuel C)) (cscr_consumer dbg d fuel (blocking_bulk_consumer C)).
  Proof.
    intros fuel C. apply same_bulk_consumer_of.
    - intros x s. unfold a_cscr_consume, cscr_consume, a_cs_enqueue. rstep. rstep.
      destruct (q_enqueue (fixed_queue T) x (cs_buffer s)) as [[b [y|]]| |]; cbn [bind]; try reflexivity.
      rstep. rewrite run_cscr_drain. destruct (cscr_drain _ _ _ _ _) as [[s1 [[]|e]]| |]; cbn [bind]; try reflexivity.
      unfold debug_assert. rscr.
    - intros f s. unfold a_cscr_close, cscr_close. rstep. rewrite run_cscr_drain.
      destruct (cscr_drain _ _ _ _ _) as [[s1 [[]|e]]| |]; cbn [bind]; try reflexivity. unfold a_cs. rscr.
    - intros s. unfold a_cscr_flush, cscr_flush. rstep. rewrite run_cscr_drain.
      destruct (cscr_drain _ _ _ _ _) as [[s1 [[]|e]]| |]; cbn [bind]; try reflexivity. unfold a_cs. rscr.
    - intros s. unfold a_cscr_expose, cscr_expose, a_cs_expose_slots. rstep. rstep. cbn [bind].
      destruct (_ <? _); [rscr|]. rstep. rewrite run_cscr_drain.
      destruct (cscr_drain _ _ _ _ _) as [[s1 [[]|e]]| |]; cbn [bind]; try reflexivity. rscr.
    - reflexivity.
    - intros n s. apply run_sync.
  Qed.
End RunConsumerScrambler.

Lemma endian_encode_completes : forall w, completes_encode (a_endian_encode w) (endian_encode w).
Proof.
  intros w S F E C v s. unfold a_endian_encode, endian_encode, a_bulk_consume_full_slice, bulk_consume_full_slice.
  rstep. rewrite run_bulk_consume_full_slice. rgo.
Qed.

Lemma endian_decode_completes : forall w, completes_decode (a_endian_decode w) (endian_decode w).
Proof.
  intros w S F E P s. unfold a_endian_decode, endian_decode, a_bulk_overwrite_full_slice, bulk_overwrite_full_slice.
  rstep. rewrite run_bulk_overwrite_full_slice. rgo.
Qed.

Section RunCodecs.
  Context {S F E V O RT : Type}.

  Lemma same_encoder : forall a_encode encode (C : a_bulk_consumer S byte F E), @completes_encode V a_encode encode ->
    same_buffered_consumer (blocking_buffered_consumer (a_encoder a_encode C)) (encoder encode (blocking_bulk_consumer C)).
  Proof. intros ae e C H. split; [split|]; intros; [apply H|reflexivity|reflexivity]. Qed.

  Lemma run_decoder_produce : forall a_decode decode (P : a_bulk_producer S byte F E) s, @completes_decode V O a_decode decode ->
    run (a_decoder_produce a_decode P) s = decoder_produce decode (blocking_bulk_producer P) s.
  Proof.
    intros ad de P s H. unfold a_decoder_produce, decoder_produce. blk. rstep. rdes; try reflexivity.
    destruct z as [s1 [[x|f]|e]]; try reflexivity. rstep. rewrite H. rgo.
  Qed.

  Lemma run_decoder_slurp : forall (P : a_bulk_producer S byte F E) s,
    run (a_decoder_slurp (O := O) P) s = decoder_slurp (blocking_bulk_producer P) s.
  Proof. intros P s. unfold a_decoder_slurp, decoder_slurp. blk. rgo. Qed.

  Lemma same_decoder : forall a_decode decode (P : a_bulk_producer S byte F E), @completes_decode V O a_decode decode ->
    same_buffered_producer (blocking_buffered_producer (a_decoder a_decode P)) (decoder decode (blocking_bulk_producer P)).
  Proof. intros ad de P H. split; intros s; [now apply run_decoder_produce|apply run_decoder_slurp]. Qed.

  Lemma same_relative_encoder : forall a_encode encode (C : a_bulk_consumer S byte F E), (forall r : RT, @completes_encode V (a_encode r) (encode r)) ->
    same_buffered_consumer (blocking_buffered_consumer (a_relative_encoder a_encode C)) (relative_encoder encode (blocking_bulk_consumer C)).
  Proof.
    intros ae e C H. split; [split|]; intros; cbn -[run await within]; unfold a_rel, on_inner.
    - rstep. rstep. cbn [bind]. rstep. now rewrite H.
    - now rstep.
    - now rstep.
  Qed.

  Lemma same_relative_decoder : forall a_decode decode (P : a_bulk_producer S byte F E), (forall r : RT, @completes_decode V O (a_decode r) (decode r)) ->
    same_buffered_producer (blocking_buffered_producer (a_relative_decoder a_decode P)) (relative_decoder decode (blocking_bulk_producer P)).
  Proof.
    intros ad de P H. split; intros s; cbn -[run await within a_decoder_produce decoder_produce a_decoder_slurp decoder_slurp]; unfold a_rel, on_inner.
    - rstep. rstep. cbn [bind]. rstep. rewrite (run_decoder_produce (ad (relative_to s)) (de (relative_to s)) P (rel_inner s) (H (relative_to s))). reflexivity.
    - rstep. now rewrite run_decoder_slurp.
  Qed.
End RunCodecs.

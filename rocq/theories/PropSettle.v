(** Property C89: a consumer that has been flushed or closed has nothing delayed. *)
From Coq Require Import Bool List Arith Lia.
From Coq.Init Require Import Byte.
From Verif Require Import Prelude ListFacts Traits QueueModel BasicModel AdaptorModel ScramblerModel IoModel TowerModel CodecModel CodecExamples PublicModel SharedModel SharedSpec
  SharedProofs SharedExamples AsyncModel AsyncAdaptorModel AsyncIoModel AsyncSpec AsyncIoSpec AsyncAdaptorProofs AsyncIoProofs SettleSpec SettleProofs.
Import ListNotations.

(** *** C89: the adaptors. Whatever the consumer inside delays, in whatever state it is. *)
Theorem C89_adaptors :
  forall (S T F E : Type) (idle : S -> Prop) (C : bulk_consumer S T F E), settles C idle ->
  settles (limit_consumer C) (fun s => idle (lim_inner s)) /\
  (forall U W (f : W -> U -> W * T), settles (map_item_consumer C f) (fun s => idle (mi_inner s))) /\
  (forall B, settles (map_final_consumer (B := B) C) (fun s => idle (wf_inner s))) /\
  (forall B, settles (map_error_consumer (B := B) C) (fun s => idle (wf_inner s))) /\
  settles (invariant_consumer C) (fun s => idle (inv_inner s)) /\
  (forall checks, settles (public_consumer checks C) (fun s => idle (inv_inner s))) /\
  (forall dbg d fuel, settles (cscr_consumer dbg d fuel C) (cscr_idle idle)).
Proof.
  intros S T F E idle C H. splits; intros.
  - now apply settle_limit.
  - now apply settle_map_item.
  - now apply settle_map_final.
  - now apply settle_map_error.
  - now apply settle_invariant.
  - now apply settle_public.
  - now apply settle_cscr.
Qed.
Print Assumptions C89_adaptors.

(** Any composition of the adaptors that can be composed at will. *)
Theorem C89_towers :
  forall (S T F E G B : Type) (idle : S -> Prop) (C : bulk_consumer S T F E) (t : ctower F E G B), settles C idle ->
  settles (ct_consumer C t) (ct_idle idle t).
Proof. intros S T F E G B idle C t H. now apply settle_tower. Qed.
Print Assumptions C89_towers.

(** The adaptor for writers, with the queues of the crate. *)
Theorem C89_writer :
  forall (S T : Type) (idle : S -> Prop) (W : writer S T), writer_settles W idle ->
  (forall fuel, settles (writer_consumer W (fixed_queue T) fuel) (writer_idle (fixed_queue T) idle)) /\
  (forall N fuel, settles (writer_consumer W (static_queue N) fuel) (writer_idle (static_queue N) idle)) /\
  (forall Q (I : queue Q T) fuel, exposes_all I -> settles (writer_consumer W I fuel) (writer_idle I idle)).
Proof.
  intros S T idle W H. splits; intros; apply settle_writer; auto; [apply fixed_exposes_all|apply static_exposes_all].
Qed.
Print Assumptions C89_writer.

Theorem C89_encoders :
  forall (S V F E : Type) (idle : S -> Prop) (C : bulk_consumer S byte F E), settles C idle ->
  (forall encode : encode_fn V, settles (encoder encode C) idle) /\
  (forall RT (encode : RT -> encode_fn V), settles (relative_encoder encode C) (fun s => idle (rel_inner s))).
Proof. intros S V F E idle C H. split; intros; [now apply settle_encoder|now apply settle_relative_encoder]. Qed.
Print Assumptions C89_encoders.

(** The asynchronous versions, however often their futures are suspended. *)
Theorem C89_async :
  (forall (S T F E : Type) (idle : S -> Prop) (C : a_bulk_consumer S T F E), settles (blocking_bulk_consumer C) idle ->
   settles (blocking_bulk_consumer (a_limit_consumer C)) (fun s => idle (lim_inner s)) /\
   (forall U W (f : W -> U -> W * T), settles (blocking_buffered_consumer (a_map_item_consumer C f)) (fun s => idle (mi_inner s))) /\
   (forall B, settles (blocking_bulk_consumer (a_map_final_consumer (B := B) C)) (fun s => idle (wf_inner s))) /\
   (forall B, settles (blocking_bulk_consumer (a_map_error_consumer (B := B) C)) (fun s => idle (wf_inner s))) /\
   settles (blocking_bulk_consumer (a_invariant_consumer C)) (fun s => idle (inv_inner s)) /\
   (forall dbg d fuel, settles (blocking_bulk_consumer (a_cscr_consumer dbg d fuel C)) (cscr_idle idle))) /\
  (forall (S V F E : Type) (idle : S -> Prop) (C : a_bulk_consumer S byte F E), settles (blocking_bulk_consumer C) idle ->
   (forall (a_encode : a_encode_fn V) encode, completes_encode a_encode encode ->
      settles (blocking_buffered_consumer (a_encoder a_encode C)) idle) /\
   (forall RT (a_encode : RT -> a_encode_fn V) encode, (forall r, completes_encode (a_encode r) (encode r)) ->
      settles (blocking_buffered_consumer (a_relative_encoder a_encode C)) (fun s => idle (rel_inner s)))) /\
  (forall (S T Q : Type) (idle : S -> Prop) (W : a_writer S T) (I : queue Q T) fuel, exposes_all I -> writer_settles (blocking_writer W) idle ->
   settles (blocking_bulk_consumer (a_writer_consumer W I fuel)) (writer_idle I idle)).
Proof.
  split; [intros S T F E idle C H; splits; intros|split; [intros S V F E idle C H; split; intros|intros]].
  - eapply settle_same; [exact (proj1 (same_limit_consumer C))|]. apply settle_limit; assumption.
  - eapply settle_same; [exact (same_map_item_consumer _ f)|]. apply settle_map_item; assumption.
  - eapply settle_same; [exact (proj1 (same_map_final_consumer C))|]. apply settle_map_final; assumption.
  - eapply settle_same; [exact (proj1 (same_map_error_consumer C))|]. apply settle_map_error; assumption.
  - eapply settle_same; [exact (proj1 (same_invariant_consumer C))|]. apply settle_invariant; assumption.
  - eapply settle_same; [exact (proj1 (same_cscr_consumer dbg d fuel C))|]. apply settle_cscr; assumption.
  - eapply settle_same; [exact (same_encoder _ _ C H0)|]. apply settle_encoder; assumption.
  - eapply settle_same; [exact (same_relative_encoder _ _ C H0)|]. apply settle_relative_encoder; assumption.
  - eapply settle_same; [exact (proj1 (same_writer I W fuel))|]. apply settle_writer; assumption.
Qed.
Print Assumptions C89_async.

(** *** C89: pipes that succeed have nothing delayed. [pipe_at_most] and [bulk_pipe_at_most] do unless they have piped as much as they were told to. *)
Theorem C89_pipes :
  forall (SP SC T F PE CE : Type) (idle : SC -> Prop),
  (forall (P : producer SP T F PE) (C : consumer SC T F CE) sp sc sp' sc', close_settles C idle ->
     (forall fuel, pipe fuel P C sp sc = Ret (sp', sc', Ok tt) -> idle sc') /\
     (forall count n, pipe_at_most P C count sp sc = Ret (sp', sc', Ok n) -> n < count -> idle sc')) /\
  (forall (P : bulk_producer SP T F PE) (C : bulk_consumer SC T F CE) sp sc sp' sc', close_settles C idle ->
     (forall fuel, bulk_pipe fuel P C sp sc = Ret (sp', sc', Ok tt) -> idle sc') /\
     (forall fuel count n, bulk_pipe_at_most fuel P C count sp sc = Ret (sp', sc', Ok n) -> n < count -> idle sc')).
Proof.
  intros SP SC T F PE CE idle. splits; intros P C sp sc sp' sc' HC; splits.
  - intros fuel H. eapply pipe_settles; eassumption.
  - intros count n H Hn. eapply pipe_at_most_settles; eassumption.
  - intros fuel H. eapply bulk_pipe_settles; eassumption.
  - intros fuel count n H Hn. eapply bulk_pipe_at_most_settles; eassumption.
Qed.
Print Assumptions C89_pipes.

(** *** C89: the shared encoders. If the last call that has had the lock was a flush that succeeded, and nobody has the lock now, nothing is delayed. *)
Theorem C89_shared_flush :
  forall (S V F E : Type) (C : bulk_consumer S byte F E) idle flushp s0 evs,
  flush_settles C idle -> implements flushp (fun s => c_flush C s) ->
  (forall RT encp (tasks : list (RT * list (ecall RT V F))) y h i r,
     careful (shared_relative_encoder encp flushp) (system_new s0 tasks) evs y ->
     sy_hist y = h ++ [(i, (r, EFlush, Ok tt))] -> sy_holder y = None -> idle (sy_shared y)) /\
  (forall encp (tasks : list (unit * list (ecall infallible V F))) y h i r,
     careful (shared_encoder encp flushp) (system_new s0 tasks) evs y ->
     sy_hist y = h ++ [(i, (r, EFlush, Ok tt))] -> sy_holder y = None -> idle (sy_shared y)).
Proof.
  intros S V F E C idle flushp s0 evs HF IF. split; intros.
  - eapply shared_flush_settles; eassumption.
  - eapply shared_plain_flush_settles; eassumption.
Qed.
Print Assumptions C89_shared_flush.

(** *** C89, violated: closing a shared encoder "should internally trigger flushing" (lib.rs 160-163). It does nothing, so that everything the shared
    consumer delays remains delayed when all users have closed their encoders. *)
Definition C89_lazy : bulk_consumer (lazy byte unit) byte unit infallible := lazy_consumer.
Theorem C89_shared_close_refuted :
  exists (encp : byte -> byte -> prog (lazy byte unit) (res unit infallible)) (tasks : list (byte * list (ecall byte byte unit))) evs y,
  settles C89_lazy lazy_idle /\
  (forall r v, implements (encp r v) (fun s => bytewise_encode (diff_enc r) C89_lazy v s)) /\
  careful (shared_relative_encoder encp (prog_call (fun s => c_flush C89_lazy s))) (system_new (mk_lazy [] [] None) tasks) evs y /\
  all_done y /\
  (* every task has closed its encoder, and everything has succeeded *)
  map (fun t => map (fun e => (snd (fst e), snd e)) (tk_log t)) (sy_tasks y) = [[(EConsume x08, Some (Ok tt)); (EClose tt, Some (Ok tt))]] /\
  ~ lazy_idle (sy_shared y).
Proof.
  exists (fun r v => consume_each_prog C89_lazy (diff_enc r v)), [(x07, [EConsume x08; EClose tt])], (repeat (Poll 0) 8). eexists. splits.
  - split; [intros s s' H|intros f s s' H]; injection H as <-; reflexivity.
  - intros r v. apply consume_each_implements.
  - apply polls_careful; [repeat constructor|]. vm_compute. reflexivity.
  - repeat constructor.
  - reflexivity.
  - discriminate.
Qed.
Print Assumptions C89_shared_close_refuted.

(** A consumer that delays everything, inside the adaptors. Without flushing, nothing has arrived. *)
Definition C89_nat : bulk_consumer (lazy nat nat) nat nat nat := lazy_consumer.
Definition C89_scr : cscr (lazy nat nat) nat := cscr_new_with_capacity 0 (mk_lazy [] [] None) [ScConsume] 4.
Example C89_example :
  settles C89_nat lazy_idle /\
  (let* (s, _) := c_consume (cscr_consumer true 0 20 C89_nat) 5 C89_scr in
   let* (s, _) := c_consume (cscr_consumer true 0 20 C89_nat) 6 s in
   Ret (fx_amount (cs_buffer s), cs_inner s)) = Ret (2, mk_lazy [] [] None) /\
  (let* (s, _) := c_consume (cscr_consumer true 0 20 C89_nat) 5 C89_scr in
   let* (s, _) := c_consume (cscr_consumer true 0 20 C89_nat) 6 s in
   let* (s, r) := c_flush (cscr_consumer true 0 20 C89_nat) s in
   Ret (fx_amount (cs_buffer s), cs_inner s, r)) = Ret (0, mk_lazy [5; 6] [] None, Ok tt) /\
  (let t := CTLimit 3 (CTMapFinal (fun b : bool => if b then 1 else 2) (CTInvariant CTBase)) in
   let* (s, _) := c_consume (ct_consumer C89_nat t) 7 (ct_new (mk_lazy [] [] None) t) in
   let* (s, r) := c_close (ct_consumer C89_nat t) true s in
   Ret (inv_inner (wf_inner (lim_inner s)), r)) = Ret (mk_lazy [7] [] (Some 1), Ok tt).
Proof.
  splits; try reflexivity. split; [intros s s' H|intros f s s' H]; injection H as <-; reflexivity.
Qed.

(** A writer that delays everything until it is flushed. *)
Definition C89_lazy_writer : writer (lazy nat nat) nat :=
  mk_writer (fun ys s => Ret (mk_lazy (lz_arrived s) (lz_delayed s ++ ys) (lz_closed s), Ok (length ys)))
    (fun s => Ret (mk_lazy (lz_arrived s ++ lz_delayed s) [] (lz_closed s), Ok tt))
    (fun s => Ret (mk_lazy (lz_arrived s ++ lz_delayed s) [] (Some 0), Ok tt)).
Example C89_writer_example :
  writer_settles C89_lazy_writer lazy_idle /\
  (let C := writer_consumer C89_lazy_writer (fixed_queue nat) 9 in
   let* (s, n) := c_expose C (mk_writer_state (mk_lazy [] [] None) (fixed_new 0 4)) in
   let* (s, _) := c_consume_slots C 2 (c_write C [1; 2; 3] s) in
   let* (s', r) := c_flush C s in
   Ret (n, fx_amount (ws_queue s), ws_writer s, fx_amount (ws_queue s'), ws_writer s', r)) =
  Ret (Ok 4, 2, mk_lazy [] [] None, 0, mk_lazy [1; 2] [] None, Ok tt).
Proof.
  splits; try reflexivity. split; intros s s' H; injection H as <-; reflexivity.
Qed.

(** Pipes: one that ends, and one that is stopped by its limit. *)
Definition C89_unit : bulk_consumer (lazy nat unit) nat unit nat := lazy_consumer.
Example C89_pipes_example :
  close_settles C89_unit lazy_idle /\
  (let* (s, r) := bulk_pipe 9 from_slice_producer C89_unit (from_slice_new [1; 2; 3]) (mk_lazy [] [] None) in
   Ret (snd s, r)) = Ret (mk_lazy [1; 2; 3] [] (Some tt), Ok tt) /\
  (let* (s, r) := pipe_at_most from_slice_producer C89_unit 2 (from_slice_new [1; 2; 3]) (mk_lazy [] [] None) in
   Ret (snd s, r)) = Ret (mk_lazy [] [1; 2] None, Ok 2) /\
  (let* (s, r) := bulk_pipe_at_most 9 from_slice_producer C89_unit 4 (from_slice_new [1; 2; 3]) (mk_lazy [] [] None) in
   Ret (snd s, r)) = Ret (mk_lazy [1; 2; 3] [] (Some tt), Ok 3).
Proof. splits; try reflexivity. intros f s s' H; injection H as <-; reflexivity. Qed.

(** Shared by two tasks: the encodings of both have arrived after the flush of one of them. *)
Example C89_shared_example :
  exists y, careful (shared_relative_encoder (F := unit) (fun r v => consume_each_prog C89_lazy (diff_enc r v)) (prog_call (fun s => c_flush C89_lazy s)))
    (system_new (mk_lazy [] [] None) [(x07, [EConsume x08]); (x05, [EConsume x05; EFlush])]) (repeat (Poll 0) 8 ++ repeat (Poll 1) 12) y /\
  sy_hist y = [(0, (x07, EConsume x08, Ok tt)); (1, (x05, EConsume x05, Ok tt))] ++ [(1, (x05, EFlush, Ok tt))] /\
  sy_holder y = None /\ sy_shared y = mk_lazy [x01; x08; x00] [] None.
Proof.
  eexists. splits.
  - apply polls_careful; [repeat constructor|]. vm_compute. reflexivity.
  - reflexivity.
  - reflexivity.
  - reflexivity.
Qed.

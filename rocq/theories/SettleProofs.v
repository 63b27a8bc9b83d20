(** Flushing and closing: the adaptors, the pipes and the shared encoders. *)
From Coq Require Import Bool List Arith Lia.
From Coq.Init Require Import Byte.
From Verif Require Import Prelude ListFacts Traits QueueModel BasicModel AdaptorModel ScramblerModel IoModel TowerModel CodecModel PublicModel SharedModel SharedSpec SharedProofs
  AsyncSpec SettleSpec.
Import ListNotations.
Set Implicit Arguments.

(** Takes a computation that has returned apart. *)
Ltac returned H :=
  repeat match type of H with
  | (let* _ := ?o in _) = Ret _ => let E := fresh "E" in destruct o as [?| |] eqn:E; cbn [bind] in H; try discriminate H
  | (match ?r with _ => _ end) = Ret _ => destruct r; cbn [bind] in H; try discriminate H
  | _ => match goal with u : unit |- _ => destruct u end
  end.

Section Adaptors.
  Context {S T F E : Type}.

  Lemma settle_limit : forall (C : bulk_consumer S T F E) idle, settles C idle -> settles (limit_consumer C) (fun s => idle (lim_inner s)).
  Proof.
    intros C idle [HF HC]. split.
    - intros s s' H. cbn in H. unfold limit_flush in H. returned H. injection H as <- H. destruct r as [[]|]; [|discriminate H]. exact (HF _ _ E0).
    - intros f s s' H. cbn in H. unfold limit_close in H. returned H. injection H as <- H. destruct r as [[]|]; [|discriminate H]. exact (HC _ _ _ E0).
  Qed.

  Lemma settle_map_item : forall U W (C : buffered_consumer S T F E) (f : W -> U -> W * T) idle,
    settles C idle -> settles (map_item_consumer C f) (fun s => idle (mi_inner s)).
  Proof.
    intros U W C f idle [HF HC]. split.
    - intros s s' H. cbn in H. unfold map_item_flush in H. returned H. injection H as <- ->. exact (HF _ _ E0).
    - intros g s s' H. cbn in H. unfold map_item_close in H. returned H. injection H as <- ->. exact (HC _ _ _ E0).
  Qed.

  Lemma settle_map_final : forall B (C : bulk_consumer S T F E) idle, settles C idle -> settles (map_final_consumer (B := B) C) (fun s => idle (wf_inner s)).
  Proof.
    intros B C idle [HF HC]. split.
    - intros s s' H. cbn in H. unfold map_final_flush in H. returned H. injection H as <- ->. exact (HF _ _ E0).
    - intros g s s' H. cbn in H. unfold map_final_close in H. returned H. injection H as <- ->. exact (HC _ _ _ E1).
  Qed.

  Lemma settle_map_error : forall B (C : bulk_consumer S T F E) idle, settles C idle -> settles (map_error_consumer (B := B) C) (fun s => idle (wf_inner s)).
  Proof.
    intros B C idle [HF HC]. split.
    - intros s s' H. cbn in H. unfold map_error_call in H. returned H. injection H as <- H. destruct r as [[]|]; [|discriminate H]. exact (HF _ _ E0).
    - intros g s s' H. cbn in H. unfold map_error_call in H. returned H. injection H as <- H. destruct r as [[]|]; [|discriminate H]. exact (HC _ _ _ E0).
  Qed.

  Lemma settle_invariant : forall (C : bulk_consumer S T F E) idle, settles C idle -> settles (invariant_consumer C) (fun s => idle (inv_inner s)).
  Proof.
    intros C idle [HF HC]. split.
    - intros s s' H. cbn in H. unfold invariant_flush, inv_check in H. destruct (inv_active s); [|discriminate]. returned H. injection H as <- ->. exact (HF _ _ E0).
    - intros g s s' H. cbn in H. unfold invariant_close, inv_check in H. destruct (inv_active s); [|discriminate]. returned H. injection H as <- ->. exact (HC _ _ _ E0).
  Qed.

  Lemma settle_public : forall checks (C : bulk_consumer S T F E) idle, settles C idle -> settles (public_consumer checks C) (fun s => idle (inv_inner s)).
  Proof.
    intros [] C idle H; [exact (@settle_invariant C idle H)|]. destruct H as [HF HC]. split.
    - intros s s' H. cbn in H. unfold inv_forward in H. returned H. injection H as <- ->. exact (HF _ _ E0).
    - intros g s s' H. cbn in H. unfold inv_forward in H. returned H. injection H as <- ->. exact (HC _ _ _ E0).
  Qed.

  Lemma drained : forall dbg d fuel (C : bulk_consumer S T F E) s s', cscr_drain dbg d fuel C s = Ret (s', Ok tt) -> fx_amount (cs_buffer s') = 0.
  Proof.
    intros dbg d. induction fuel as [|fuel IH]; intros C s s' H; cbn [cscr_drain] in H; [discriminate|].
    destruct (0 <? cs_len s) eqn:El.
    - returned H. exact (IH _ _ _ H).
    - injection H as <-. apply Nat.ltb_ge in El. unfold cs_len in El. cbn in El. lia.
  Qed.

  Lemma settle_cscr : forall dbg d fuel (C : bulk_consumer S T F E) idle, settles C idle -> settles (cscr_consumer dbg d fuel C) (cscr_idle idle).
  Proof.
    intros dbg d fuel C idle [HF HC]. split.
    - intros s s' H. cbn -[cscr_drain] in H. unfold cscr_flush in H. returned H. injection H as <- ->. split; [exact (drained _ _ _ _ _ E0)|exact (HF _ _ E1)].
    - intros g s s' H. cbn -[cscr_drain] in H. unfold cscr_close in H. returned H. injection H as <- ->. split; [exact (drained _ _ _ _ _ E0)|exact (HC _ _ _ E1)].
  Qed.
End Adaptors.

Lemma settle_tower : forall T F E G B (t : ctower F E G B) S (C : bulk_consumer S T F E) idle, settles C idle -> settles (ct_consumer C t) (ct_idle idle t).
Proof.
  intros T F E G B t S C idle HS.
  induction t as [|G B n t IH|G B K g t IH|G B t IH]; cbn [ct_consumer ct_idle].
  - exact HS.
  - apply settle_limit; exact IH.
  - apply settle_map_final; exact IH.
  - apply settle_invariant; exact IH.
Qed.

Section Writers.
  Context {S Q T : Type} (W : writer S T) (I : queue Q T).

  Lemma flushed_empty : forall fuel st st', exposes_all I -> flush_internal_buffer W I fuel st = Ret (st', Ok tt) -> q_len I (ws_queue st') = 0.
  Proof.
    induction fuel as [|fuel IH]; intros st st' HI H; cbn [flush_internal_buffer] in H; [discriminate|].
    destruct (q_expose_items I (ws_queue st)) as [[q [items|]]| |] eqn:Eq; cbn [bind] in H; try discriminate.
    - returned H. exact (IH _ _ HI H).
    - injection H as <-. exact (HI _ _ Eq).
  Qed.

  Lemma settle_writer : forall fuel idle, exposes_all I -> writer_settles W idle -> settles (writer_consumer W I fuel) (writer_idle I idle).
  Proof.
    intros fuel idle HI [HF HC]. split.
    - intros s s' H. cbn -[flush_internal_buffer] in H. unfold wr_flush, flushed in H. returned H. injection H as <- ->.
      split; [exact (flushed_empty _ _ HI E)|exact (HF _ _ E0)].
    - intros g s s' H. cbn -[flush_internal_buffer] in H. unfold wr_close, flushed in H. returned H. injection H as <- ->.
      split; [exact (flushed_empty _ _ HI E)|exact (HC _ _ E0)].
  Qed.
End Writers.

Lemma fixed_exposes_all : forall T, exposes_all (fixed_queue T).
Proof.
  intros T q q' H. cbn in H. unfold fixed_expose_items in H. destruct (fx_amount q =? 0) eqn:E; [|returned H].
  injection H as <-. now apply Nat.eqb_eq.
Qed.
Lemma static_exposes_all : forall T N, exposes_all (@static_queue T N).
Proof.
  intros T N q q' H. cbn in H. unfold static_expose_items in H. destruct (st_amount q =? 0) eqn:E; [|returned H].
  injection H as <-. now apply Nat.eqb_eq.
Qed.

Lemma settle_encoder : forall S F E V (encode : encode_fn V) (C : bulk_consumer S byte F E) idle, settles C idle -> settles (encoder encode C) idle.
Proof. intros S F E V encode C idle [HF HC]. split; [exact HF|exact HC]. Qed.

Lemma settle_relative_encoder : forall S F E V RT (encode : RT -> encode_fn V) (C : bulk_consumer S byte F E) idle,
  settles C idle -> settles (relative_encoder encode C) (fun s => idle (rel_inner s)).
Proof.
  intros S F E V RT encode C idle [HF HC]. split.
  - intros s s' H. cbn in H. unfold on_inner in H. returned H. injection H as <- ->. exact (HF _ _ E0).
  - intros g s s' H. cbn in H. unfold on_inner in H. returned H. injection H as <- ->. exact (HC _ _ _ E0).
Qed.

Lemma settle_same : forall S T F E (C C' : buffered_consumer S T F E) idle, same_buffered_consumer C C' -> settles C' idle -> settles C idle.
Proof.
  intros S T F E C C' idle [[H1 H2] H3] [HF HC]. split.
  - intros s s' H. rewrite H3 in H. exact (HF _ _ H).
  - intros f s s' H. rewrite H2 in H. exact (HC _ _ _ H).
Qed.

(** ** Pipes *)
Section Pipes.
  Context {SP SC T F PE CE : Type}.

  Lemma pipe_settles : forall (P : producer SP T F PE) (C : consumer SC T F CE) idle, close_settles C idle ->
    forall fuel sp sc sp' sc', pipe fuel P C sp sc = Ret (sp', sc', Ok tt) -> idle sc'.
  Proof.
    intros P C idle HC. induction fuel as [|fuel IH]; intros sp sc sp' sc' H; cbn [pipe] in H; [discriminate|].
    destruct (p_produce P sp) as [[sp1 [[x|f]|e]]| |]; cbn [bind] in H; try discriminate.
    - destruct (c_consume C x sc) as [[sc1 [[]|e]]| |]; cbn [bind] in H; try discriminate. exact (IH _ _ _ _ H).
    - destruct (c_close C f sc) as [[sc1 [[]|e]]| |] eqn:Ec; cbn [bind] in H; try discriminate. injection H as <- <-. exact (HC _ _ _ Ec).
  Qed.

  Lemma bulk_pipe_settles : forall (P : bulk_producer SP T F PE) (C : bulk_consumer SC T F CE) idle, close_settles C idle ->
    forall fuel sp sc sp' sc', bulk_pipe fuel P C sp sc = Ret (sp', sc', Ok tt) -> idle sc'.
  Proof.
    intros P C idle HC. induction fuel as [|fuel IH]; intros sp sc sp' sc' H; cbn [bulk_pipe] in H; [discriminate|].
    destruct (p_expose P sp) as [[sp1 [[x|f]|e]]| |]; cbn [bind] in H; try discriminate.
    - destruct (c_bulk_consume C x sc) as [[sc1 [n|e]]| |]; cbn [bind] in H; try discriminate.
      destruct (p_consider P n sp1) as [[sp2 [[]|e]]| |]; cbn [bind] in H; try discriminate. exact (IH _ _ _ _ H).
    - destruct (c_close C f sc) as [[sc1 [[]|e]]| |] eqn:Ec; cbn [bind] in H; try discriminate. injection H as <- <-. exact (HC _ _ _ Ec).
  Qed.

  Lemma pipe_at_most_settles : forall (P : producer SP T F PE) (C : consumer SC T F CE) idle, close_settles C idle ->
    forall todo piped sp sc sp' sc' n, pipe_at_most_loop todo P C piped sp sc = Ret (sp', sc', Ok n) -> n < piped + todo -> idle sc'.
  Proof.
    intros P C idle HC. induction todo as [|todo IH]; intros piped sp sc sp' sc' n H Hn; cbn [pipe_at_most_loop] in H.
    - injection H as _ _ ->. lia.
    - destruct (p_produce P sp) as [[sp1 [[x|f]|e]]| |]; cbn [bind] in H; try discriminate.
      + destruct (c_consume C x sc) as [[sc1 [[]|e]]| |]; cbn [bind] in H; try discriminate. apply (IH _ _ _ _ _ _ H). lia.
      + destruct (c_close C f sc) as [[sc1 [[]|e]]| |] eqn:Ec; cbn [bind] in H; try discriminate. injection H as <- <- <-. exact (HC _ _ _ Ec).
  Qed.

  Lemma bulk_pipe_at_most_settles : forall (P : bulk_producer SP T F PE) (C : bulk_consumer SC T F CE) idle, close_settles C idle ->
    forall fuel count piped sp sc sp' sc' n, bulk_pipe_at_most_loop fuel P C count piped sp sc = Ret (sp', sc', Ok n) -> n < count -> idle sc'.
  Proof.
    intros P C idle HC. induction fuel as [|fuel IH]; intros count piped sp sc sp' sc' n H Hn; cbn [bulk_pipe_at_most_loop] in H; [discriminate|].
    destruct (piped <? count) eqn:Ep; [|injection H as _ _ ->; apply Nat.ltb_ge in Ep; lia].
    destruct (p_expose P sp) as [[sp1 [[x|f]|e]]| |]; cbn [bind] in H; try discriminate.
    - destruct (csub count piped) as [room| |]; cbn [bind] in H; try discriminate.
      destruct (slice_to _ _) as [ys| |]; cbn [bind] in H; try discriminate.
      destruct (c_bulk_consume C ys sc) as [[sc1 [m|e]]| |]; cbn [bind] in H; try discriminate.
      destruct (p_consider P m sp1) as [[sp2 [[]|e]]| |]; cbn [bind] in H; try discriminate. exact (IH _ _ _ _ _ _ _ H Hn).
    - destruct (c_close C f sc) as [[sc1 [[]|e]]| |] eqn:Ec; cbn [bind] in H; try discriminate. injection H as <- <- <-. exact (HC _ _ _ Ec).
  Qed.
End Pipes.

(** ** Shared encoders *)
Lemma in_turn_last : forall S X (fs : list (S -> outcome (S * X))) f s xs x s', in_turn (fs ++ [f]) s = (xs ++ [x], Ret s') -> exists s1, f s1 = Ret (s', x).
Proof.
  induction fs as [|g fs IH]; intros f s xs x s' H; cbn in H.
  - destruct (f s) as [[s1 x1]| |] eqn:E; try (injection H as _ H; discriminate H). injection H as H ->.
    apply (app_inj_tail [] xs) in H as [_ ->]. eauto.
  - destruct (g s) as [[s1 x1]| |] eqn:E; try (injection H as _ H; discriminate H). destruct (in_turn (fs ++ [f]) s1) as [ys o] eqn:E2. injection H as H ->.
    destruct xs as [|x2 xs]; injection H as -> ->; [|exact (IH _ _ _ _ _ E2)].
    exfalso. destruct fs as [|g' fs]; cbn in E2; [destruct (f s1) as [[]| |]|destruct (g' s1) as [[? ?]| |]; [destruct (in_turn (fs ++ [f]) _)|..]]; discriminate E2.
Qed.

Lemma shared_flush_settles : forall S V F E RT (C : bulk_consumer S byte F E) idle encp flushp s0 (tasks : list (RT * list (ecall RT V F))) evs y h i r,
  flush_settles C idle -> implements flushp (fun s => c_flush C s) ->
  careful (shared_relative_encoder encp flushp) (system_new s0 tasks) evs y ->
  sy_hist y = h ++ [(i, (r, EFlush, Ok tt))] -> sy_holder y = None -> idle (sy_shared y).
Proof.
  intros S V F E RT C idle encp flushp s0 tasks evs y h i r HF IF H Hh Hn.
  destruct (careful_ok H (sys_ok_new _ s0 tasks)) as (H1 & H2 & _). unfold lock_ok in H2. rewrite Hn in H2.
  assert (Eb : sy_shared y = sy_base y) by apply H2. rewrite Eb. rewrite Hh, !map_app in H1. cbn [map snd fst] in H1.
  apply in_turn_last in H1 as (s1 & H1). cbn [call_alone shared_relative_encoder snd fst] in H1.
  rewrite IF in H1. exact (HF _ _ H1).
Qed.

Lemma shared_plain_flush_settles : forall S V F E (C : bulk_consumer S byte F E) idle encp flushp s0 (tasks : list (unit * list (ecall infallible V F))) evs y h i r,
  flush_settles C idle -> implements flushp (fun s => c_flush C s) ->
  careful (shared_encoder encp flushp) (system_new s0 tasks) evs y ->
  sy_hist y = h ++ [(i, (r, EFlush, Ok tt))] -> sy_holder y = None -> idle (sy_shared y).
Proof.
  intros S V F E C idle encp flushp s0 tasks evs y h i r HF IF H Hh Hn.
  destruct (careful_ok H (sys_ok_new _ s0 tasks)) as (H1 & H2 & _). unfold lock_ok in H2. rewrite Hn in H2.
  assert (Eb : sy_shared y = sy_base y) by apply H2. rewrite Eb. rewrite Hh, !map_app in H1. cbn [map snd fst] in H1.
  apply in_turn_last in H1 as (s1 & H1). cbn [call_alone shared_encoder snd fst] in H1.
  rewrite IF in H1. exact (HF _ _ H1).
Qed.

(** Proofs about the calls that the adaptor for writers and the encoders and decoders for numbers make. *)
From Coq Require Import List Arith Lia.
From Coq.Init Require Import Byte.
From Verif Require Import Prelude ListFacts QueueModel QueueSpec Traits Contracts AdaptorSpec IoModel CodecModel EndianModel EndianSpec EndianProofs CallsSpec CallsProofs.
Import ListNotations.
Set Implicit Arguments.

Section WriterCalls.
  Context {S Q T : Type} (W : writer S T) (I : queue Q T) (c : nat) (RQ : Q -> list T -> nat -> list T -> Prop).
  Context (LQ : lawful_queue I c RQ) (Hc : 1 <= c).

  Lemma w_makes_app : forall l l' s s1 s2, w_makes W s l s1 -> w_makes W s1 l' s2 -> w_makes W s (l ++ l') s2.
  Proof. intros l l' s s1 s2 H. induction H; intros H2; cbn [app]; [exact H2|eapply w_makes_write|eapply w_makes_flush|eapply w_makes_close]; eauto. Qed.

  Lemma write_all_calls : forall fuel buf s s' r, write_all_loop W fuel buf s = Ret (s', r) -> exists l, w_makes W s l s' /\ wc_all buf l r.
  Proof.
    induction fuel as [|fuel IH]; intros [|b buf] s s' r H; cbn [write_all_loop] in H; try discriminate.
    - injection H as <- <-. exists []. split; constructor.
    - injection H as <- <-. exists []. split; constructor.
    - destruct (w_write W (b :: buf) s) as [[s1 [n|e]]| |] eqn:E; cbn [bind] in H; try discriminate.
      + destruct (slice_from n (b :: buf)) as [rest| |] eqn:ES; cbn [bind] in H; try discriminate.
        unfold slice_from in ES. destruct (Nat.ltb_spec (length (b :: buf)) n) as [HN|HN]; [discriminate|]. injection ES as <-.
        destruct n as [|n]; cbn [Nat.eqb] in H.
        * injection H as <- <-. exists [WcWrite (b :: buf) (Ok 0)]. split; [eapply w_makes_write; [exact E|apply w_makes_nil]|].
          apply wc_all_none; [discriminate|reflexivity].
        * destruct (IH _ _ _ _ H) as (l & HM & HA). exists (WcWrite (b :: buf) (Ok (Datatypes.S n)) :: l).
          split; [eapply w_makes_write; [exact E|exact HM]|]. apply wc_all_some; [|exact HA]. split; [lia|exact HN].
      + injection H as <- <-. exists [WcWrite (b :: buf) (Err e)]. split; [eapply w_makes_write; [exact E|apply w_makes_nil]|].
        apply wc_all_err. discriminate.
  Qed.

  Lemma drain_calls : forall fuel st items k w st' r, RQ (ws_queue st) items k w -> flush_internal_buffer W I fuel st = Ret (st', r) ->
    exists l items', w_makes W (ws_writer st) l (ws_writer st') /\ wc_drain items l r items' /\ RQ (ws_queue st') items' k w /\ (r = Ok tt -> items' = []).
  Proof.
    induction fuel as [|fuel IH]; intros [s q] items k w st' r HQ H; cbn [flush_internal_buffer ws_queue ws_writer] in *; [discriminate|].
    destruct items as [|y items].
    - rewrite (lq_expose_items_empty LQ HQ) in H. cbn [bind] in H. injection H as <- <-. exists [], [].
      split; [apply w_makes_nil|]. split; [constructor|]. split; [exact HQ|reflexivity].
    - destruct (lq_expose_items LQ HQ) as (q1 & ys & rest & E & NE & EQ & HQ1); [discriminate|]. rewrite E in H. cbn [bind] in H. rewrite EQ in *.
      destruct (write_all W ys s) as [[s1 r1]| |] eqn:EW; cbn [bind] in H; try discriminate.
      destruct (@write_all_calls _ _ _ _ _ EW) as (l1 & HM1 & HA1). destruct r1 as [[]|e].
      + destruct (lq_consider_dequeued LQ (length ys) HQ1) as (q2 & E2 & HQ2); [rewrite app_length; lia|]. rewrite E2 in H. cbn [bind] in H.
        rewrite skipn_app, skipn_all, Nat.sub_diag in HQ2. cbn [app skipn] in HQ2.
        destruct (IH (mk_writer_state s1 q2) _ _ _ _ _ HQ2 H) as (l2 & items' & HM2 & HD & HQ' & HE). exists (l1 ++ l2), items'.
        split; [exact (w_makes_app HM1 HM2)|]. split; [now apply wc_drain_piece|]. split; assumption.
      + injection H as <- <-. exists l1, (ys ++ rest). split; [exact HM1|]. split; [now apply wc_drain_err|]. split; [exact HQ1|discriminate].
  Qed.

  Lemma flushed_calls : forall X fuel st items k w st' (r : res X io_error) K, RQ (ws_queue st) items k w ->
    flushed W I fuel st K = Ret (st', r) ->
    exists l1 r1 items1 st1, w_makes W (ws_writer st) l1 (ws_writer st1) /\ wc_drain items l1 r1 items1 /\ RQ (ws_queue st1) items1 k w /\
      match r1 with
      | Err e => st' = st1 /\ r = Err e
      | Ok _ => items1 = [] /\ K st1 = Ret (st', r)
      end.
  Proof.
    intros X fuel st items k w st' r K HQ H. unfold flushed in H.
    destruct (flush_internal_buffer W I fuel st) as [[st1 r1]| |] eqn:E; cbn [bind] in H; try discriminate.
    destruct (@drain_calls _ _ _ _ _ _ _ HQ E) as (l1 & items1 & HM & HD & HQ1 & HE). exists l1, r1, items1, st1.
    split; [exact HM|]. split; [exact HD|]. split; [exact HQ1|]. destruct r1 as [[]|e]; [split; [now apply HE|exact H]|].
    injection H as <- <-. split; reflexivity.
  Qed.

  Lemma wr_calls : forall fuel o st items k w st' a, RQ (ws_queue st) items k w ->
    match o with CWrite ys => length ys <= k | CConsumeSlots n => n <= length w | _ => True end ->
    c_do (writer_consumer W I fuel) o st = Ret (st', a) ->
    exists l items' k' w', w_makes W (ws_writer st) l (ws_writer st') /\ wr_call c items w o l a items' w' /\ RQ (ws_queue st') items' k' w'.
  Proof.
    intros fuel o st items k w st' a HQ HO H.
    destruct o as [x|f| | |ys|n|buf]; cbn [c_do] in H.
    - cbn in H. unfold wr_consume in H. destruct (flushed _ _ _ _ _) as [[st2 r]| |] eqn:E; cbn [bind] in H; try discriminate. injection H as <- <-.
      destruct (@flushed_calls _ _ _ _ _ _ _ _ _ HQ E) as (l1 & r1 & items1 & st1 & HM & HD & HQ1 & HR). destruct r1 as [[]|e].
      + destruct HR as [-> HK]. destruct (write_all W [x] (ws_writer st1)) as [[s2 r2]| |] eqn:EW; cbn [bind] in HK; try discriminate. injection HK as <- <-.
        destruct (@write_all_calls _ _ _ _ _ EW) as (l2 & HM2 & HA). exists (l1 ++ l2), [], k, w. split; [exact (w_makes_app HM HM2)|]. split; [|exact HQ1].
        exists l1, (Ok tt). split; [exact HD|]. exists l2. split; [reflexivity|]. exists r2. split; [exact HA|reflexivity].
      + destruct HR as [-> ->]. exists l1, items1, k, w. split; [exact HM|]. split; [|exact HQ1]. exists l1, (Err e). split; [exact HD|]. split; reflexivity.
    - cbn in H. unfold wr_close in H. destruct (flushed _ _ _ _ _) as [[st2 r]| |] eqn:E; cbn [bind] in H; try discriminate. injection H as <- <-.
      destruct (@flushed_calls _ _ _ _ _ _ _ _ _ HQ E) as (l1 & r1 & items1 & st1 & HM & HD & HQ1 & HR). destruct r1 as [[]|e].
      + destruct HR as [-> HK]. destruct (w_close W (ws_writer st1)) as [[s2 r2]| |] eqn:EW; cbn [bind] in HK; try discriminate. injection HK as <- <-.
        exists (l1 ++ [WcClose r2]), [], k, w. split; [refine (w_makes_app HM _); eapply w_makes_close; [exact EW|apply w_makes_nil]|]. split; [|exact HQ1].
        exists l1, (Ok tt). split; [exact HD|]. eexists. split; [reflexivity|]. exists r2. split; reflexivity.
      + destruct HR as [-> ->]. exists l1, items1, k, w. split; [exact HM|]. split; [|exact HQ1]. exists l1, (Err e). split; [exact HD|]. split; reflexivity.
    - cbn in H. unfold wr_flush in H. destruct (flushed _ _ _ _ _) as [[st2 r]| |] eqn:E; cbn [bind] in H; try discriminate. injection H as <- <-.
      destruct (@flushed_calls _ _ _ _ _ _ _ _ _ HQ E) as (l1 & r1 & items1 & st1 & HM & HD & HQ1 & HR). destruct r1 as [[]|e].
      + destruct HR as [-> HK]. destruct (w_flush W (ws_writer st1)) as [[s2 r2]| |] eqn:EW; cbn [bind] in HK; try discriminate. injection HK as <- <-.
        exists (l1 ++ [WcFlush r2]), [], k, w. split; [refine (w_makes_app HM _); eapply w_makes_flush; [exact EW|apply w_makes_nil]|]. split; [|exact HQ1].
        exists l1, (Ok tt). split; [exact HD|]. eexists. split; [reflexivity|]. exists r2. split; reflexivity.
      + destruct HR as [-> ->]. exists l1, items1, k, w. split; [exact HM|]. split; [|exact HQ1]. exists l1, (Err e). split; [exact HD|]. split; reflexivity.
    - cbn in H. unfold wr_expose_slots in H. destruct (flushed _ _ _ _ _) as [[st2 r]| |] eqn:E; cbn [bind] in H; try discriminate. injection H as <- <-.
      destruct (@flushed_calls _ _ _ _ _ _ _ _ _ HQ E) as (l1 & r1 & items1 & st1 & HM & HD & HQ1 & HR). destruct r1 as [[]|e].
      + destruct HR as [-> HK]. destruct (lq_expose_slots LQ HQ1) as (q2 & n & EX & N1 & N2 & HQ2); [cbn; lia|]. rewrite EX in HK. cbn [bind expect] in HK.
        injection HK as <- <-. exists l1, [], n, []. split; [exact HM|]. split; [|exact HQ2].
        exists l1, (Ok tt). split; [exact HD|]. exists []. split; [now rewrite app_nil_r|]. exists n. cbn in N2. auto.
      + destruct HR as [-> ->]. exists l1, items1, k, w. split; [exact HM|]. split; [|exact HQ1]. exists l1, (Err e). split; [exact HD|]. split; reflexivity.
    - injection H as <- <-. exists [], items, k, (overlay ys w). split; [apply w_makes_nil|]. split; [cbn; auto|]. exact (lq_write LQ _ HQ HO).
    - cbn in H. unfold wr_consume_slots in H. destruct (lq_consider_enqueued LQ n HQ HO) as (q' & E & HQ'). rewrite E in H. cbn in H. injection H as <- <-.
      exists [], (items ++ firstn n w), (k - n), (skipn n w). split; [apply w_makes_nil|]. split; [cbn; auto|exact HQ'].
    - cbn in H. unfold wr_bulk_consume in H. destruct (flushed _ _ _ _ _) as [[st2 r]| |] eqn:E; cbn [bind] in H; try discriminate. injection H as <- <-.
      destruct (@flushed_calls _ _ _ _ _ _ _ _ _ HQ E) as (l1 & r1 & items1 & st1 & HM & HD & HQ1 & HR). destruct r1 as [[]|e].
      + destruct HR as [-> HK]. destruct (w_write W buf (ws_writer st1)) as [[s2 r2]| |] eqn:EW; cbn [bind] in HK; try discriminate.
        exists (l1 ++ [WcWrite buf r2]), [], k, w.
        assert (HM2 : w_makes W (ws_writer st) (l1 ++ [WcWrite buf r2]) s2) by (refine (w_makes_app HM _); eapply w_makes_write; [exact EW|apply w_makes_nil]).
        destruct r2 as [[|n]|e]; cbn in HK; injection HK as <- <-; (split; [exact HM2|]); (split; [|exact HQ1]);
          (exists l1, (Ok tt); split; [exact HD|]; eexists; split; [reflexivity|]; eexists; eexists; split; [reflexivity|]; split; [|reflexivity]);
          [eexists; split; [|reflexivity]; reflexivity|reflexivity|reflexivity].
      + destruct HR as [-> ->]. exists l1, items1, k, w. split; [exact HM|]. split; [|exact HQ1]. exists l1, (Err e). split; [exact HD|]. split; reflexivity.
  Qed.
End WriterCalls.

Section Numbers.
  Context {S F E : Type}.

  Lemma encoder_calls : forall (C : bulk_consumer S byte F E) n v s s' r,
    c_consume (encoder (endian_encode n) C) v s = Ret (s', r) -> exists l, c_trace C s l s' /\ encoder_call n v l r.
  Proof.
    intros C n v s s' r H. cbn in H. unfold endian_encode in H.
    destruct (bulk_consume_full_slice _ _ _ _) as [[s1 r1]| |] eqn:EB; cbn [bind] in H; try discriminate. injection H as <- <-.
    destruct (bulk_consume_slice_makes _ _ _ _ _ EB) as (l & H1 & r0 & H2 & ->). exists l. split; [exact H1|].
    exists (to_bytes n v), r0. split; [apply to_bytes_encodes|]. destruct r0 as [[]|[j e]]; (split; [exact H2|reflexivity]).
  Qed.

  Lemma decoder_calls : forall (P : bulk_producer S byte F E) n s s' r,
    p_produce (decoder (endian_decode n) P) s = Ret (s', r) -> exists l, p_trace P s l s' /\ decoder_call n l r.
  Proof.
    intros P n s s' r H. cbn in H. unfold decoder_produce in H.
    destruct (p_expose P s) as [[s1 [[ys|f]|e]]| |] eqn:EX; cbn [bind] in H; try discriminate.
    - unfold endian_decode in H. destruct (bulk_overwrite_full_slice _ _ _ _) as [[s2 [bs r1]]| |] eqn:EB; cbn [bind] in H; try discriminate.
      destruct (bulk_overwrite_slice_makes _ _ _ _ _ EB) as (l & H1 & H2). exists ((PExpose, PASlice (Ok (inl ys))) :: l).
      assert (HT : p_trace P s ((PExpose, PASlice (Ok (inl ys))) :: l) s2) by (eapply p_trace_step; [cbn [p_do]; rewrite EX; reflexivity|exact H1]).
      assert (H3 : bulk_overwrite_slice_calls (repeat x00 (width n)) bs r1 l) by (rewrite width_bits in H2; exact H2). clear H2.
      destruct r1 as [[]|[j [f|e]]]; cbn in H; injection H as <- <-; (split; [exact HT|]); right; right; exists ys, l, bs; eexists;
        (split; [reflexivity|]); (split; [exact H3|]); try reflexivity.
      exists (from_bytes n bs). split; [reflexivity|]. intros HL. apply encodes_iff. symmetry. apply to_from_bytes. now rewrite width_bits.
    - injection H as <- <-. exists [(PExpose, PASlice (Ok (inr f)))]. split; [eapply p_trace_step; [cbn [p_do]; rewrite EX; reflexivity|constructor]|].
      left. exists f. split; reflexivity.
    - injection H as <- <-. exists [(PExpose, PASlice (Err e))]. split; [eapply p_trace_step; [cbn [p_do]; rewrite EX; reflexivity|constructor]|].
      right. left. exists e. split; reflexivity.
  Qed.
End Numbers.

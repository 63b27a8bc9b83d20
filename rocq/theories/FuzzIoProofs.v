(** A working writer is a lawful consumer, and the targets that use one. *)
From Coq Require Import Bool List Arith Lia.
From Verif Require Import Prelude ListFacts QueueModel QueueSpec QueueProofs Traits Contracts ContractFacts AdaptorSpec
  BasicModel BasicSpec BasicProofs BufferedSpec BufferedFacts ScramblerModel ScramblerProofs IoModel IoSpec IoProofs
  FuzzModel FuzzSpec FuzzProofs FuzzScramblerProofs FuzzMeansProofs FuzzIoModel FuzzIoSpec.
Import ListNotations.
Set Implicit Arguments.
Set Warnings "-abstract-large-number".

Local Arguments received : simpl never.

Section WorkingWriter.
  Context {S Q T : Type} (W : writer S T) (I : queue Q T) (c : nat).
  Context (RQ : Q -> list T -> nat -> list T -> Prop).
  Context (LW : working_writer W) (LQ : lawful_queue I c RQ) (Hc : 1 <= c).

  Lemma working_write_all_loop : forall fuel buf s log, length buf <= fuel ->
    exists s' calls, write_all_loop (logged W) fuel buf (s, log) = Ret ((s', log ++ calls), Ok tt) /\ received calls = buf.
  Proof.
    induction fuel as [|fuel IH]; intros [|b buf] s log Hf; try (cbn in Hf; lia); cbn [write_all_loop].
    1, 2: exists s, []; rewrite app_nil_r; auto.
    destruct (ww_write LW s (buf := b :: buf)) as (s1 & n & E1 & Hn); [discriminate|]. cbn [logged w_write]. rewrite E1. cbn [bind].
    rewrite slice_from_ok by lia. cbn [bind]. destruct n as [|n]; [lia|]. cbn [Nat.eqb skipn]. cbn [length] in *.
    destruct (IH (skipn n buf) s1 (log ++ [WWrite (b :: buf) (Ok (Datatypes.S n))])) as (s2 & calls & E2 & H2).
    { rewrite skipn_length. lia. }
    exists s2, (WWrite (b :: buf) (Ok (Datatypes.S n)) :: calls). rewrite <- app_assoc in E2. split; [exact E2|].
    change (received (WWrite (b :: buf) (Ok (Datatypes.S n)) :: calls)) with ((b :: firstn n buf) ++ received calls).
    rewrite H2. cbn [app]. f_equal. apply firstn_skipn.
  Qed.

  Lemma working_write_all : forall buf s log,
    exists s' calls, write_all (logged W) buf (s, log) = Ret ((s', log ++ calls), Ok tt) /\ received calls = buf.
  Proof. intros. apply working_write_all_loop. lia. Qed.

  Lemma working_flush_internal : forall fuel items q k w s log, RQ q items k w -> length items < fuel ->
    exists s' q' calls,
      flush_internal_buffer (logged W) I fuel (mk_writer_state (s, log) q) = Ret (mk_writer_state (s', log ++ calls) q', Ok tt) /\
      received calls = items /\ RQ q' [] k w.
  Proof.
    induction fuel as [|fuel IH]; intros items q k w s log HR Hf; [lia|].
    cbn [flush_internal_buffer ws_queue ws_writer]. destruct items as [|x items].
    - rewrite (lq_expose_items_empty LQ HR). cbn [bind]. exists s, q, []. rewrite app_nil_r. auto.
    - destruct (lq_expose_items LQ HR) as (q1 & ys & rest & E1 & N1 & X1 & H1); [discriminate|].
      rewrite E1. cbn [bind]. destruct (working_write_all ys s log) as (s2 & calls & E2 & H2). rewrite E2. cbn [bind].
      rewrite X1 in *. destruct (lq_consider_dequeued LQ (length ys) H1) as (q3 & E3 & H3); [rewrite app_length; lia|].
      rewrite E3. cbn [bind]. rewrite skipn_app, skipn_all, Nat.sub_diag in H3. cbn [app skipn] in H3.
      assert (1 <= length ys) by (destruct ys; [congruence|cbn; lia]). rewrite app_length in Hf.
      destruct (IH rest q3 k w s2 (log ++ calls) H3) as (s4 & q4 & calls' & E4 & H4 & H5); [lia|].
      rewrite E4. exists s4, q4, (calls ++ calls'). rewrite app_assoc, received_app, H2, H4. auto.
  Qed.

  Context (fuel : nat) (Hfuel : c < fuel).
  Notation state := (writer_state (S * list (wcall T)) Q).

  (** [acc]: everything that was received or is queued. *)
  Definition ww_rel (st : state) (acc : list T) (k : nat) (w : list T) : Prop :=
    exists queued, RQ (ws_queue st) queued k w /\ received (snd (ws_writer st)) ++ queued = acc.
  Definition ww_end (st : state) (acc : list T) : Prop :=
    received (snd (ws_writer st)) = acc /\ closed (snd (ws_writer st)).

  Lemma working_flushed : forall X st acc k w (k0 : state -> outcome (state * res X io_error)), ww_rel st acc k w ->
    exists st', flushed (logged W) I fuel st k0 = k0 st' /\ received (snd (ws_writer st')) = acc /\ RQ (ws_queue st') [] k w.
  Proof.
    intros X [[s log] q] acc k w k0 (queued & HQ & HA). cbn in HQ, HA. unfold flushed.
    destruct (@working_flush_internal fuel queued q k w s log HQ) as (s' & q' & calls & E1 & H1 & H2).
    { pose proof (lq_wf LQ HQ). lia. }
    rewrite E1. cbn [bind]. eexists. split; [reflexivity|]. cbn. now rewrite received_app, H1.
  Qed.

  Lemma received_snoc : forall (log : list (wcall T)) call, received (log ++ [call]) = received log ++ received [call].
  Proof. intros. apply received_app. Qed.

  Lemma working_writer_core : lawful_consumer_core (writer_consumer (logged W) I fuel) (collect_machine T unit io_error) ww_rel ww_end.
  Proof.
    constructor; cbn [c_consume c_close c_flush c_expose c_write c_consume_slots writer_consumer c_buffered c_consumer
      collect_machine m_step m_finish m_flush fst snd].
    - intros st acc k w (queued & HQ & _). exact (proj2 (proj2 (lq_wf LQ HQ))).
    - intros st acc k w (queued & HQ & HA). exists queued. split; [exact (lq_forget LQ HQ)|exact HA].
    - intros st acc k w x HR. unfold wr_consume.
      match goal with |- context [flushed _ _ _ _ ?k0] => destruct (working_flushed k0 HR) as ([[s log] q] & E1 & H1 & H2) end.
      rewrite E1. cbn [ws_writer ws_queue snd] in *. destruct (working_write_all [x] s log) as (s' & calls & E2 & H3).
      rewrite E2. cbn [bind]. eexists. split; [reflexivity|]. exists []. cbn. rewrite received_app, H1, H3, app_nil_r.
      split; [exact (lq_forget LQ H2)|reflexivity].
    - intros st acc k w f HR. unfold wr_close.
      match goal with |- context [flushed _ _ _ _ ?k0] => destruct (working_flushed k0 HR) as ([[s log] q] & E1 & H1 & H2) end.
      rewrite E1. cbn [ws_writer ws_queue snd logged w_close] in *. destruct (ww_close LW s) as (s' & E2).
      rewrite E2. cbn [bind]. eexists. split; [reflexivity|]. split; cbn; [|exists log; reflexivity]. rewrite received_app, H1. apply app_nil_r.
    - intros st acc k w HR. unfold wr_flush.
      match goal with |- context [flushed _ _ _ _ ?k0] => destruct (working_flushed k0 HR) as ([[s log] q] & E1 & H1 & H2) end.
      rewrite E1. cbn [ws_writer ws_queue snd logged w_flush] in *. destruct (ww_flush LW s) as (s' & E2).
      rewrite E2. cbn [bind]. eexists. split; [reflexivity|]. exists []. cbn. rewrite received_app, H1, !app_nil_r. auto.
    - intros st acc k w HR. left. unfold wr_expose_slots.
      match goal with |- context [flushed _ _ _ _ ?k0] => destruct (working_flushed k0 HR) as ([[s log] q] & E1 & H1 & H2) end.
      rewrite E1. cbn [ws_writer ws_queue snd] in *. destruct (lq_expose_slots LQ H2) as (q' & n & E2 & Hn & _ & H3); [cbn; lia|].
      rewrite E2. cbn [bind expect]. exists (mk_writer_state (s, log) q'), n. splits; auto. exists []. cbn. rewrite app_nil_r. auto.
    - intros [s q] acc k w ys (queued & HQ & HA) Hl. exists queued. cbn in *. split; [now apply (lq_write LQ)|exact HA].
    - intros [s q] acc k w n (queued & HQ & HA) Hk Hn. rewrite collect_feed. unfold wr_consume_slots. cbn [ws_writer ws_queue] in *.
      destruct (lq_consider_enqueued LQ n HQ Hn) as (q' & E1 & H1). rewrite E1. cbn [bind].
      eexists. split; [reflexivity|]. exists (queued ++ firstn n w). cbn. split; [exact H1|]. now rewrite app_assoc, HA.
  Qed.

  Lemma working_writer_lawful : lawful_consumer (writer_consumer (logged W) I fuel) (collect_machine T unit io_error) ww_rel ww_end.
  Proof.
    constructor; [exact working_writer_core|]. intros st acc k w buf HR Hb. left. cbn [c_bulk_consume writer_consumer]. unfold wr_bulk_consume.
    match goal with |- context [flushed _ _ _ _ ?k0] => destruct (working_flushed k0 HR) as ([[s log] q] & E1 & H1 & H2) end.
    rewrite E1. cbn [ws_writer ws_queue snd logged w_write] in *. destruct (ww_write LW s Hb) as (s' & n & E2 & Hn).
    rewrite E2. cbn [bind]. destruct (Nat.eqb_spec n 0) as [|_]; [lia|].
    eexists _, n, _. split; [reflexivity|]. split; [exact Hn|]. rewrite collect_feed.
    split; [rewrite firstn_length_le by lia; reflexivity|]. exists []. cbn.
    rewrite received_app, H1. change (received [WWrite buf (Ok n)]) with (firstn n buf ++ []).
    rewrite !app_nil_r. split; [exact (lq_forget LQ H2)|reflexivity].
  Qed.

  Lemma ww_rel_new : forall s q, RQ q [] 0 [] -> ww_rel (mk_writer_state (s, []) q) [] 0 [].
  Proof. intros s q H. exists []. auto. Qed.
End WorkingWriter.

(** ** What sending and receiving means *)

Lemma send_each_consumes : forall S E (C : consumer S nat unit E) input s, send_each C input s = consume_each C input s.
Proof.
  intros S E C. induction input as [|x input IH]; intros s; cbn [send_each consume_each]; [reflexivity|].
  destruct (c_consume C x s) as [[s' [[]|e]]| |]; cbn [bind unwrap is_ok assert]; auto.
  rewrite assert_eq_refl. apply IH.
Qed.

Lemma fuzz_send_iff : forall S E (C : consumer S nat unit E) input s s',
  fuzz_send C input s = Ret s' <->
  exists s1, consumes C input s s1 /\ c_close C tt s1 = Ret (s', Ok tt).
Proof.
  intros S E C input s s'. unfold fuzz_send. rewrite send_each_consumes, bind_Ret. split.
  - intros (s1 & E1 & H). apply consume_each_iff in E1. apply bind_Ret in H as ([s2 r] & E2 & H).
    apply bind_Ret in H as ([] & E3 & H). apply unwrap_Ret in E3 as ->. cbn in H. injection H as ->. eauto.
  - intros (s1 & H1 & E2). exists s1. split; [now apply consume_each_iff|]. rewrite E2. reflexivity.
Qed.

Lemma fuzz_receive_iff : forall S E (P : producer S nat unit E) input s,
  fuzz_receive P input s = Ret tt <-> exists s', answers P s (map (fun x => Ok (inl x)) input ++ [Ok (inr tt)]) s'.
Proof.
  intros S E P. induction input as [|x input IH]; intros s; cbn [fuzz_receive map app]; rewrite bind_Ret; split.
  - intros ([s' r] & E1 & H). apply bind_Ret in H as (r' & E2 & H). apply unwrap_Ret in E2 as ->. apply assert_eq_Ret in H as <-.
    exists s'. econstructor; [exact E1|constructor].
  - intros (s' & H). inversion H as [|? s1 ? ? ? E1 H']; subst. inversion H'; subst.
    exists (s', Ok (inr tt)). split; [exact E1|reflexivity].
  - intros ([s' r] & E1 & H). apply bind_Ret in H as (r' & E2 & H). apply unwrap_Ret in E2 as ->.
    apply seq_Ret in H as [H1 H2]. apply assert_eq_Ret in H1 as <-. apply IH in H2 as (s'' & H2).
    exists s''. econstructor; eauto.
  - intros (s' & H). inversion H as [|? s1 ? ? ? E1 H']; subst. exists (s1, Ok (inl x)). split; [exact E1|].
    cbn [bind unwrap]. rewrite assert_eq_refl. apply IH. eauto.
Qed.

Lemma receive_lawful_iff : forall S E (P : bulk_producer S nat unit E) R D, lawful_producer_core P R D ->
  forall input s bs k, R s bs (Ok tt) k -> fuzz_receive P input s = Ret tt <-> bs = input.
Proof.
  intros S E P R D L. induction input as [|x input IH]; intros s [|b bs] k HR; cbn [fuzz_receive].
  - destruct (lp_produce_last L HR) as (s' & E1 & _). rewrite E1. split; reflexivity.
  - destruct (lp_produce L HR) as (s' & E1 & _). rewrite E1. split; discriminate.
  - destruct (lp_produce_last L HR) as (s' & E1 & _). rewrite E1. split; discriminate.
  - destruct (lp_produce L HR) as (s' & E1 & HR'). rewrite E1. cbn [bind unwrap]. specialize (IH s' bs _ HR'). split.
    + intros H. apply seq_Ret in H as [H1 H2]. apply assert_eq_Ret in H1. injection H1 as ->. f_equal. now apply IH.
    + intros [= -> ->]. rewrite assert_eq_refl. now apply IH.
Qed.

(** ** The sending end *)

Section Send.
  Context {S : Type} (C : bulk_consumer S nat unit io_error) (R : S -> list nat -> nat -> list nat -> Prop) (D : S -> list nat -> Prop).
  Context (L : lawful_consumer_core C (collect_machine nat unit io_error) R D).
  Context (fuel : nat) (ops : list cscr_op) (OK : cscr_ops_ok ops) (cap : nat)
    (Hf : Datatypes.S cap * length ops <= fuel) (dbg : bool).
  Let CS := cscr_consumer dbg 0 fuel C.

  Lemma collects_forwards : forall xs (a a' : list nat), m_forwards (collect_machine nat unit io_error) a xs a' -> a' = a ++ xs.
  Proof.
    intros xs a a' H. apply m_forwards_feed in H; [|intros b b' [= <-]; reflexivity].
    rewrite collect_feed in H. now injection H as <-.
  Qed.

  Lemma collects_refuses : forall xs (a a' : list nat) e, ~ m_refuses (collect_machine nat unit io_error) a xs e a'.
  Proof.
    intros xs a a' e (evs & ev & a1 & rest & _ & _ & _ & Hev). destruct ev; discriminate.
  Qed.

  Lemma send_each_runs : forall input s a pend, (dbg = true -> length pend + length input <= cap) ->
    cscr_rel R cap ops s a pend 0 [] ->
    exists s' a' pend', consume_each CS input s = Ret s' /\ a' ++ pend' = a ++ pend ++ input /\
      cscr_rel R cap ops s' a' pend' 0 [].
  Proof.
    induction input as [|x input IH]; intros s a pend Hroom HR; cbn [consume_each].
    - exists s, a, pend. rewrite app_nil_r. auto.
    - destruct (@scrambled_consume _ _ _ _ _ 0 _ _ _ _ L cap fuel ops OK Hf dbg x s a pend 0 []) as
        [(s1 & out & pend1 & a1 & E1 & Ho & _ & HF & HR1)|(s1 & e & a1 & _ & HF & _)]; auto;
        [| |exfalso; exact (collects_refuses HF)].
      { intros Hd. specialize (Hroom Hd). cbn in Hroom. lia. }
      fold CS in E1. rewrite E1. cbn [bind is_ok assert]. apply collects_forwards in HF as ->.
      destruct (IH s1 (a ++ out) pend1) as (s' & a' & pend' & E2 & Ho' & HR2).
      { intros Hd. specialize (Hroom Hd). apply (f_equal (@length nat)) in Ho. rewrite !app_length in Ho. cbn in Ho, Hroom. lia. }
      { exact HR1. }
      exists s', a', pend'. splits; auto. rewrite Ho', <- app_assoc. f_equal. rewrite app_assoc, Ho, <- app_assoc. reflexivity.
  Qed.

  Lemma send_runs : forall input s, (dbg = true -> length input <= cap) -> cscr_rel R cap ops s [] [] 0 [] ->
    exists s', fuzz_send CS input s = Ret s' /\ D (cs_inner s') input.
  Proof.
    intros input s Hroom HR. unfold fuzz_send. rewrite send_each_consumes.
    destruct (@send_each_runs input s [] [] Hroom HR) as (s1 & a1 & pend1 & E1 & Ho & HR1). rewrite E1. cbn [bind].
    destruct (@scrambled_close _ _ _ _ _ 0 _ _ _ _ L cap fuel ops OK Hf dbg tt s1 a1 pend1 0 [] HR1)
      as [(s2 & a2 & HF & E2 & HD)|(s2 & e & a2 & _ & HF & _)]; [|exfalso; exact (collects_refuses HF)].
    apply collects_forwards in HF as ->. cbn [collect_machine m_finish fst snd] in *. fold CS in E2. rewrite E2.
    cbn [bind unwrap]. exists s2. split; [reflexivity|]. cbn in Ho. now rewrite Ho in HD.
  Qed.

  Lemma send_each_panics : forall input s a pend, length pend <= cap -> cap < length pend + length input ->
    cscr_rel R cap ops s a pend 0 [] -> consume_each (cscr_consumer true 0 fuel C) input s = Panic.
  Proof.
    induction input as [|x input IH]; intros s a pend Hl Hlen HR; [cbn in Hlen; lia|]. cbn [consume_each].
    destruct (Nat.eq_dec (length pend) cap) as [Eq|Ne].
    - rewrite (@debug_full _ _ _ _ _ 0 _ _ _ _ L cap fuel ops OK Hf x s a pend 0 [] Eq HR); [reflexivity|].
      intros e a' H. exact (collects_refuses H).
    - destruct (@debug_room _ _ _ _ _ 0 C _ cap fuel ops x s a pend 0 [] ltac:(lia) HR) as (s' & E1 & HR').
      rewrite E1. cbn [bind is_ok assert]. apply (IH s' a (pend ++ [x])); auto; rewrite app_length; cbn in *; lia.
  Qed.
End Send.

Lemma clamp_bounds : forall low high n, low <= high -> low <= clamp low high n <= high.
Proof. intros. unfold clamp. lia. Qed.

Lemma clamp_fuel : forall fuel ops n, S scrambler_capacity * S ops <= fuel -> clamp 1 2048 n < fuel.
Proof.
  intros fuel ops n H. unfold clamp. apply (Nat.le_lt_trans _ scrambler_capacity); [apply Nat.le_min_l|].
  apply (Nat.lt_le_trans _ (S scrambler_capacity * 1)); [rewrite Nat.mul_1_r; apply Nat.lt_succ_diag_r|].
  eapply Nat.le_trans; [|exact H]. apply Nat.mul_le_mono_l. lia.
Qed.

Section Compat.
  Context {S : Type} (W : writer S nat) (LW : working_writer W).
  Context (dbg : bool) (fuel : nat) (consume_ops : list cscr_op)
    (Hn : forall n, In (ScConsumeSlots n) consume_ops -> 1 <= n)
    (Hf : Datatypes.S scrambler_capacity * Datatypes.S (length consume_ops) <= fuel).

  Lemma compat_sends : forall stream input capacity, (dbg = true -> length input <= scrambler_capacity) ->
    exists sender, fuzz_send (compat_consumer dbg fuel (logged W)) input (compat_sender (stream, []) (clamp 1 2048 capacity) consume_ops) = Ret sender /\
      received (snd (ws_writer (cs_inner sender))) = input /\
      closed (snd (ws_writer (cs_inner sender))).
  Proof.
    intros stream input capacity Hroom.
    assert (Hc : 1 <= clamp 1 2048 capacity) by (apply clamp_bounds; lia).
    pose proof (clamp_fuel capacity Hf) as Hq. set (c := clamp 1 2048 capacity) in *.
    pose proof (working_writer_core LW (@fixed_lawful nat c) Hc Hq) as L.
    assert (H0 : ww_rel (fixed_R c) (mk_writer_state (stream, []) (fixed_new 0 c)) [] 0 []).
    { apply ww_rel_new. now apply fixed_new_R. }
    destruct (@cscr_ready _ _ _ _ _ 0 _ _ _ _ _ _ consume_ops scrambler_capacity fuel L H0 scrambler_capacity_pos Hn Hf) as (OK & Hf' & HR).
    exact (@send_runs _ _ _ _ L fuel _ OK scrambler_capacity Hf' dbg input _ Hroom HR).
  Qed.

  Lemma compat_send_panics : forall stream input capacity, scrambler_capacity < length input ->
    fuzz_send (compat_consumer true fuel (logged W)) input (compat_sender (stream, []) (clamp 1 2048 capacity) consume_ops) = Panic.
  Proof.
    intros stream input capacity Hlen.
    assert (Hc : 1 <= clamp 1 2048 capacity) by (apply clamp_bounds; lia).
    pose proof (clamp_fuel capacity Hf) as Hq. set (c := clamp 1 2048 capacity) in *.
    pose proof (working_writer_core LW (@fixed_lawful nat c) Hc Hq) as L.
    assert (H0 : ww_rel (fixed_R c) (mk_writer_state (stream, []) (fixed_new 0 c)) [] 0 []).
    { apply ww_rel_new. now apply fixed_new_R. }
    destruct (@cscr_ready _ _ _ _ _ 0 _ _ _ _ _ _ consume_ops scrambler_capacity fuel L H0 scrambler_capacity_pos Hn Hf) as (OK & Hf' & HR).
    unfold fuzz_send. rewrite send_each_consumes.
    unfold compat_consumer, compat_sender. cbv zeta.
    rewrite (@send_each_panics _ _ _ _ L fuel _ OK scrambler_capacity Hf' input _ [] [] (Nat.le_0_l _) Hlen HR). reflexivity.
  Qed.

  Context (produce_ops : list pscr_op) (Hp : forall n, In (ScConsiderProduced n) produce_ops -> 1 <= n)
    (Hfp : Datatypes.S scrambler_capacity * Datatypes.S (length produce_ops) <= fuel).

  Lemma receives_iff : forall SR (P : bulk_producer SR nat unit io_error) R D, lawful_producer_core P R D -> lawful_slurp P R D ->
    forall s k bs input, R s bs (Ok tt) k ->
    fuzz_receive (pscr_producer dbg fuel P) input (pscr_new_with_capacity 0 s produce_ops scrambler_capacity) = Ret tt <-> bs = input.
  Proof.
    intros SR P R D LP LS s k bs input HR.
    destruct (@pscr_ready _ _ _ _ dbg _ _ _ 0 _ _ _ _ produce_ops scrambler_capacity fuel LP LS HR scrambler_capacity_pos Hp Hfp) as [L HR'].
    exact (@receive_lawful_iff _ _ _ _ _ (lp_core L) input _ _ _ HR').
  Qed.

  Context (input : list nat) (Hroom : dbg = true -> length input <= scrambler_capacity).

  Lemma compat_iff : forall SR (Rd : reader SR nat) R, lawful_reader Rd R ->
    forall (transfer : S * list (wcall nat) -> SR) (delivered : list (wcall nat) -> list nat),
    (forall s log, closed log -> R (transfer (s, log)) (delivered log) (Ok tt)) ->
    forall stream scap rcap,
    exists log, closed log /\ received log = input /\
      (fuzz_compat dbg fuel (logged W) Rd transfer (stream, []) input scap rcap consume_ops produce_ops = Ret tt <-> delivered log = input).
  Proof.
    intros SR Rd R LR transfer delivered HT stream scap rcap.
    destruct (compat_sends stream input scap Hroom) as ([[[s log] q] b o i] & E1 & H1 & H2). cbn [cs_inner ws_writer snd] in H1, H2.
    exists log. splits; auto. unfold fuzz_compat. cbv zeta. rewrite E1. cbn [bind cs_inner ws_writer].
    assert (Hc : 1 <= clamp 1 2048 rcap) by (apply clamp_bounds; lia). set (c := clamp 1 2048 rcap) in *.
    pose proof (rd_lawful 0 LR (@fixed_lawful nat c) Hc) as LP. 
    assert (LS : lawful_slurp (reader_producer Rd (fixed_queue nat) 0) (rd_R R (fixed_R c)) any_state) by apply rd_slurp_lawful.
    assert (HR : rd_R R (fixed_R c) (mk_reader_state (transfer (s, log)) (fixed_new 0 c)) (delivered log) (Ok tt) 0).
    { exists [], (delivered log). splits; cbn; auto. now apply fixed_new_R. }
    exact (@receives_iff _ _ _ _ (lp_core LP) LS _ _ _ input HR).
  Qed.

  Lemma compat_buf_read_iff : forall SR (Rd : buf_reader SR nat) R, lawful_buf_reader Rd R ->
    forall (transfer : S * list (wcall nat) -> SR) (delivered : list (wcall nat) -> list nat),
    (forall s log, closed log -> R (transfer (s, log)) (delivered log) (Ok tt) 0) ->
    forall stream scap,
    exists log, closed log /\ received log = input /\
      (fuzz_compat_buf_read dbg fuel (logged W) Rd transfer (stream, []) input scap consume_ops produce_ops = Ret tt <-> delivered log = input).
  Proof.
    intros SR Rd R LR transfer delivered HT stream scap.
    destruct (compat_sends stream input scap Hroom) as ([[[s log] q] b o i] & E1 & H1 & H2). cbn [cs_inner ws_writer snd] in H1, H2.
    exists log. splits; auto. unfold fuzz_compat_buf_read. cbv zeta. rewrite E1. cbn [bind cs_inner ws_writer].
    assert (HR : br_R R (transfer (s, log)) (delivered log) (Ok tt) 0) by (split; cbn; auto).
    exact (@receives_iff _ _ _ _ (lp_core (br_lawful 0 LR)) (@br_slurp_lawful _ _ _ 0 _ LR) _ _ _ input HR).
  Qed.
End Compat.

(** The tasks of the compat targets, when the other end of the connection follows a script, and when it does not. *)
From Coq Require Import Bool List Arith Lia.
From Verif Require Import Prelude ListFacts QueueModel QueueSpec QueueProofs Traits Contracts ContractFacts AdaptorSpec BufferedSpec ScramblerModel ScramblerProofs IoModel IoSpec IoProofs
  FuzzModel FuzzIoModel FuzzIoSpec FuzzIoProofs AsyncModel AsyncSpec AsyncProofs AsyncAdaptorModel AsyncAdaptorProofs AsyncIoModel AsyncIoSpec AsyncIoProofs
  AsyncSuspendProofs AsyncIoSuspendProofs JoinModel JoinSpec CorrProofs JoinProofs FuzzSpec FuzzProofs FuzzScramblerProofs FuzzMeansProofs.
Import ListNotations.
Set Implicit Arguments.
Set Warnings "-abstract-large-number".

Local Arguments received : simpl never.

(** ** Running the tasks *)
Lemma run_send_each : forall S E (C : a_consumer S nat unit E) input s,
  run (a_send_each C input) s = let* s := send_each (blocking_consumer C) input s in Ret (s, tt).
Proof.
  intros S E C. induction input as [|x input IH]; intros s; [reflexivity|]. cbn [a_send_each send_each]. rewrite run_await. cbn [blocking_consumer c_consume].
  destruct (run (ac_consume C x) s) as [[s' [[]|e]]| |]; cbn [bind]; try reflexivity.
  rewrite run_await, run_attempt. cbn [bind unwrap]. rewrite run_await, run_attempt. destruct (assert_eq tt tt) as [[]| |]; cbn [bind]; try reflexivity. apply IH.
Qed.

Lemma run_fuzz_send : forall S E (C : a_consumer S nat unit E) input s,
  run (a_fuzz_send C input) s = let* s := fuzz_send (blocking_consumer C) input s in Ret (s, tt).
Proof.
  intros S E C input s. unfold a_fuzz_send, fuzz_send. rewrite run_await, run_send_each.
  destruct (send_each _ _ _) as [s1| |]; cbn [bind]; try reflexivity. rewrite run_await. cbn [blocking_consumer c_close].
  destruct (run (ac_close C tt) s1) as [[s2 [[]|e]]| |]; cbn [bind]; try reflexivity.
Qed.

Lemma run_fuzz_receive : forall S E (P : a_producer S nat unit E) input s,
  (exists s', run (a_fuzz_receive P input) s = Ret (s', tt)) <-> fuzz_receive (blocking_producer P) input s = Ret tt.
Proof.
  intros S E P. induction input as [|x input IH]; intros s; cbn [a_fuzz_receive fuzz_receive]; rewrite run_await; cbn [blocking_producer p_produce];
    destruct (run (ap_produce P) s) as [[s' [r|e]]| |]; cbn [bind]; try (split; [intros (s1 & H); discriminate|discriminate]);
    rewrite run_await, run_attempt; cbn [bind unwrap]; try (split; [intros (s1 & H); discriminate|discriminate]).
  - rewrite run_attempt. destruct (assert_eq _ r) as [[]| |]; cbn [bind]; [split; eauto|split; [intros (s1 & H); discriminate|discriminate]..].
  - rewrite run_await, run_attempt. destruct (assert_eq _ r) as [[]| |]; cbn [bind]; [apply IH|split; [intros (s1 & H); discriminate|discriminate]..].
Qed.

Lemma fuzz_send_same : forall S E (C C' : consumer S nat unit E), same_consumer C C' -> forall input s, fuzz_send C input s = fuzz_send C' input s.
Proof.
  intros S E C C' [H1 H2] input s. unfold fuzz_send.
  assert (HS : forall s, send_each C input s = send_each C' input s).
  { induction input as [|x input IH]; intros s1; cbn [send_each]; [reflexivity|]. rewrite H1.
    destruct (c_consume C' x s1) as [[s' [[]|e]]| |]; cbn [bind unwrap]; try reflexivity. now rewrite IH. }
  rewrite HS. destruct (send_each C' input s) as [s1| |]; cbn [bind]; try reflexivity. now rewrite H2.
Qed.

Lemma fuzz_receive_same : forall S E (P P' : producer S nat unit E), same_producer P P' -> forall input s, fuzz_receive P input s = fuzz_receive P' input s.
Proof.
  intros S E P P' H. induction input as [|x input IH]; intros s; cbn [fuzz_receive]; rewrite H; [reflexivity|].
  destruct (p_produce P' s) as [[s' [r|e]]| |]; cbn [bind unwrap]; try reflexivity. now rewrite IH.
Qed.

Lemma same_logged_writer : forall S T Q (W : a_writer S T) (I : queue Q T) fuel,
  same_bulk_consumer (blocking_bulk_consumer (a_writer_consumer (a_logged W) I fuel)) (writer_consumer (logged (blocking_writer W)) I fuel).
Proof.
  intros S T Q W I fuel.
  assert (HF : forall X (k : fut (writer_state (S * list (wcall T)) Q) (res X io_error)) k' s, (forall s, run k s = k' s) ->
    run (a_flushed (a_logged W) I fuel k) s = flushed (logged (blocking_writer W)) I fuel s k').
  { intros X k k' s H. unfold a_flushed, flushed. rewrite run_await, run_logged_flush_internal.
    destruct (flush_internal_buffer _ _ _ _) as [[s1 [[]|e]]| |]; cbn [bind]; try reflexivity. apply H. }
  assert (HW : forall X (f : fut (S * list (wcall T)) X) (s : writer_state _ Q), run (a_ws f) s = let* (i, x) := run f (ws_writer s) in Ret (mk_writer_state i (ws_queue s), x)).
  { intros X f s. unfold a_ws. now rewrite run_within. }
  split; [split; [split|]|split; [|split; [|split]]].
  - intros x s. apply HF. intros s1. rewrite HW. unfold a_write_all. now rewrite run_logged_write_all_loop.
  - intros f s. apply HF. intros [[s1 log] q]. rewrite HW. cbn [ws_writer a_logged aw_close]. rewrite run_log. cbn [ws_writer ws_queue logged w_close blocking_writer].
    destruct (run (aw_close W) s1) as [[s2 r]| |]; reflexivity.
  - intros s. apply HF. intros [[s1 log] q]. rewrite HW. cbn [ws_writer a_logged aw_flush]. rewrite run_log. cbn [ws_writer ws_queue logged w_flush blocking_writer].
    destruct (run (aw_flush W) s1) as [[s2 r]| |]; reflexivity.
  - intros s. apply HF. intros s1. unfold a_wq. rewrite run_await, run_sync. destruct (q_expose_slots I (ws_queue s1)) as [[q o]| |]; cbn [bind]; try reflexivity.
    rewrite run_await, run_attempt. destruct (expect o) as [n| |]; reflexivity.
  - reflexivity.
  - intros n s. cbn -[await wr_consume_slots a_wr_consume_slots]. unfold a_wr_consume_slots, wr_consume_slots, a_wq. rewrite run_await, run_sync.
    destruct (q_consider_enqueued I n (ws_queue s)) as [q| |]; reflexivity.
  - intros buf s. apply HF. intros [[s1 log] q]. rewrite run_await, HW. cbn [ws_writer a_logged aw_write]. rewrite run_log. cbn [ws_writer ws_queue logged w_write blocking_writer].
    destruct (run (aw_write W buf) s1) as [[s2 [n|e]]| |]; cbn [bind]; try reflexivity. now destruct (n =? 0).
Qed.

Lemma script_reader_sticky : forall (T : Type) wait (s : conn T * list (conn T)) l buf s' r, script_R s [] l -> buf <> [] ->
  r_read (blocking_reader (script_reader wait)) buf s = Ret (s', r) -> script_R s' [] l.
Proof.
  intros T wait [c1 sc1] l buf s' r [H ->] Hb Er. cbn in H. destruct (@script_reads _ wait buf c1 sc1 Hb) as (c' & sc' & n & E & _ & _ & _ & H4).
  cbn [blocking_reader r_read] in Er. rewrite E in Er. injection Er as <- <-. rewrite H in H4. split; [|reflexivity]. cbn. rewrite H4. now destruct n.
Qed.

Section Tasks.
  Context (dbg : bool) (fuel wait capacity : nat) (input : list nat).

  (** *** The sender *)
  Section SendTask.
    Context (consume_ops : list cscr_op) (scap : nat).
    Context (Hroom : dbg = true -> length input <= scrambler_capacity).
    Context (Hn : forall n, In (ScConsumeSlots n) consume_ops -> 1 <= n).
    Context (Hf : Datatypes.S scrambler_capacity * Datatypes.S (length consume_ops) <= fuel).

    Definition script_consumer := a_cscr_consumer dbg 0 fuel (a_writer_consumer (a_logged (script_writer capacity wait)) (fixed_queue nat) fuel).

    Lemma script_sends : forall c sc, exists s',
      run (a_fuzz_send script_consumer input) (compat_sender ((c, sc), []) (clamp 1 2048 scap) consume_ops) = Ret (s', tt) /\
      received (snd (ws_writer (cs_inner s'))) = input /\ closed (snd (ws_writer (cs_inner s'))).
    Proof.
      intros c sc.
      assert (Hc : 1 <= clamp 1 2048 scap) by (apply clamp_bounds; lia).
      pose proof (clamp_fuel scap Hf) as Hq. unfold compat_sender. set (cc := clamp 1 2048 scap) in *.
      pose proof (working_writer_lawful (@script_writer_works nat capacity wait) (@fixed_lawful nat cc) Hc Hq) as L0.
      apply (same_lawful_consumer _ _ _ _ _ _ _ _ _ _ (same_logged_writer _ _ _)) in L0. destruct L0 as [L _].
      assert (H0 : ww_rel (fixed_R cc) (mk_writer_state ((c, sc), []) (fixed_new 0 cc)) [] 0 []).
      { apply ww_rel_new. now apply fixed_new_R. }
      destruct (@cscr_ready _ _ _ _ _ 0 _ _ _ _ _ _ consume_ops scrambler_capacity fuel L H0 scrambler_capacity_pos Hn Hf) as (OK & Hf' & HR).
      destruct (@send_runs _ _ _ _ L fuel _ OK scrambler_capacity Hf' dbg input _ Hroom HR) as (s' & E & HD).
      exists s'. split; [|exact HD]. rewrite run_fuzz_send.
      match goal with |- context [fuzz_send ?C ?i ?s] => assert (E0 : fuzz_send C i s = Ret s') end; [|now rewrite E0].
      etransitivity; [|exact E]. exact (fuzz_send_same (proj1 (proj1 (@same_cscr_consumer _ _ _ _ dbg 0 fuel _))) _ _).
    Qed.
  End SendTask.

  (** *** The receiver *)
  Section ReceiveTask.
    Context (produce_ops : list pscr_op) (Hp : forall n, In (ScConsiderProduced n) produce_ops -> 1 <= n).
    Context (Hf : Datatypes.S scrambler_capacity * Datatypes.S (length produce_ops) <= fuel).

    Lemma script_receives : forall SR (P : a_bulk_producer SR nat unit io_error) R D,
      lawful_producer_core (blocking_bulk_producer P) R D -> lawful_slurp (blocking_bulk_producer P) R D ->
      forall s k bs, R s bs (Ok tt) k ->
      (exists s', run (a_fuzz_receive (a_pscr_producer dbg fuel P) input) (pscr_new_with_capacity 0 s produce_ops scrambler_capacity) = Ret (s', tt)) <-> bs = input.
    Proof.
      intros SR P R D LP LS s k bs HR. rewrite run_fuzz_receive. rewrite <- (@receives_iff dbg fuel produce_ops Hp Hf _ _ _ _ LP LS s k bs input HR).
      match goal with |- ?a = _ <-> ?b = _ => assert (E : a = b) end; [|now rewrite E].
      exact (fuzz_receive_same (proj1 (proj1 (@same_pscr_producer _ _ _ _ dbg fuel _))) _ _).
    Qed.

    Lemma same_lawful_slurp : forall S T F E (P P' : bulk_producer S T F E) R D, same_bulk_producer P P' -> lawful_slurp P' R D -> lawful_slurp P R D.
    Proof.
      intros S T F E P P' R D ((H1 & H2) & _) L s xs l k H. rewrite H2. exact (L _ _ _ _ H).
    Qed.

    Lemma script_reader_receives : forall rcap c sc,
      (exists s', run (a_fuzz_receive (a_pscr_producer dbg fuel (a_reader_producer (script_reader wait) (fixed_queue nat) 0)) input)
          (pscr_new_with_capacity 0 (mk_reader_state (c, sc) (fixed_new 0 (clamp 1 2048 rcap))) produce_ops scrambler_capacity) = Ret (s', tt)) <->
      stream c sc = input.
    Proof.
      intros rcap c sc. assert (Hc : 1 <= clamp 1 2048 rcap) by (apply clamp_bounds; lia). set (cc := clamp 1 2048 rcap) in *.
      pose proof (rd_lawful 0 (@script_reader_lawful nat wait) (@fixed_lawful nat cc) Hc) as LP.
      assert (LS : lawful_slurp (reader_producer (blocking_reader (script_reader wait)) (fixed_queue nat) 0) (rd_R script_R (fixed_R cc)) any_state) by apply rd_slurp_lawful.
      eapply script_receives.
      - apply lp_core. eapply same_lawful_producer; [apply same_reader|exact LP].
      - eapply same_lawful_slurp; [apply same_reader|exact LS].
      - exists [], (stream c sc). splits; cbn; auto; [now apply fixed_new_R|now split].
    Qed.

    Lemma script_buf_reader_receives : forall cap c sc, 1 <= cap ->
      (exists s', run (a_fuzz_receive (a_pscr_producer dbg fuel (a_buf_reader_producer (buffered_reader (script_reader wait) 0 cap) 0)) input)
          (pscr_new_with_capacity 0 (mk_br (c, sc) []) produce_ops scrambler_capacity) = Ret (s', tt)) <->
      stream c sc = input.
    Proof.
      intros cap c sc Hc.
      assert (LB : lawful_buf_reader (blocking_buf_reader (buffered_reader (script_reader wait) 0 cap)) (bufd_R script_R)).
      { apply buffered_reader_lawful; [apply script_reader_lawful|exact Hc|apply script_reader_sticky]. }
      eapply script_receives.
      - apply lp_core. eapply same_lawful_producer; [apply same_buf_reader|exact (br_lawful 0 LB)].
      - eapply same_lawful_slurp; [apply same_buf_reader|exact (@br_slurp_lawful _ _ _ 0 _ LB)].
      - split; [|exact Logic.I]. exists (stream c sc). cbn. split; [reflexivity|]. split; [now split|apply le_n].
    Qed.
  End ReceiveTask.
End Tasks.

(** Sending and receiving with pipes and codecs. *)
From Coq Require Import Bool List Arith Lia ZArith.
From Coq.Init Require Import Byte.
From Verif Require Import Prelude ListFacts QueueModel QueueSpec QueueProofs Traits Contracts ContractFacts BasicModel BasicSpec BasicProofs AdaptorSpec BufferedSpec PipeSpec PipeProofs
  CodecModel CodecSpec CodecProofs EndianModel EndianSpec EndianProofs TowerProofs
  IoModel IoSpec IoProofs FuzzModel FuzzIoModel FuzzIoSpec FuzzIoProofs FuzzSpec FuzzProofs
  AsyncModel AsyncSpec AsyncProofs AsyncAdaptorModel AsyncAdaptorProofs AsyncIoModel AsyncIoSpec AsyncIoProofs AsyncSuspendProofs AsyncYieldProofs
  JoinModel JoinSpec CorrProofs JoinProofs JoinTaskProofs JoinRunProofs LinkModel LinkSpec LinkCorrProofs.
Import ListNotations.
Set Implicit Arguments.

Local Arguments received : simpl never.

(** ** More fuel *)
Section More.
  Context {SP SC T F PE CE : Type}.

  Lemma pipe_more : forall (P : producer SP T F PE) (C : consumer SC T F CE) fuel more sp sc x, pipe fuel P C sp sc = Ret x -> pipe (fuel + more) P C sp sc = Ret x.
  Proof.
    intros P C. induction fuel as [|fuel IH]; intros more sp sc x; cbn [pipe Nat.add]; [discriminate|].
    destruct (p_produce P sp) as [[sp' [[y|f]|e]]| |]; cbn [bind]; auto. destruct (c_consume C y sc) as [[sc' [[]|e]]| |]; cbn [bind]; auto.
  Qed.

  Lemma bulk_pipe_more : forall (P : bulk_producer SP T F PE) (C : bulk_consumer SC T F CE) fuel more sp sc x,
    bulk_pipe fuel P C sp sc = Ret x -> bulk_pipe (fuel + more) P C sp sc = Ret x.
  Proof.
    intros P C. induction fuel as [|fuel IH]; intros more sp sc x; cbn [bulk_pipe Nat.add]; [discriminate|].
    destruct (p_expose P sp) as [[sp' [[y|f]|e]]| |]; cbn [bind]; auto. destruct (c_bulk_consume C y sc) as [[sc' [n|e]]| |]; cbn [bind]; auto.
    destruct (p_consider P n sp') as [[sp2 [[]|e]]| |]; cbn [bind]; auto.
  Qed.

  Lemma run_piping_more : forall how (P : a_bulk_producer SP T F PE) (C : a_bulk_consumer SC T F CE) fuel more s x,
    run (piping how fuel P C) s = Ret x -> run (piping how (fuel + more) P C) s = Ret x.
  Proof.
    intros [|] P C fuel more [sp sc] x; cbn [piping].
    - rewrite !run_pipe. destruct x as [[sp' sc'] r]. apply pipe_more.
    - rewrite !run_bulk_pipe. destruct x as [[sp' sc'] r]. apply bulk_pipe_more.
  Qed.
End More.

(** ** Piping everything *)
Lemma piping_collects : forall SP SC T PE CE how (P : a_bulk_producer SP T unit PE) (C : a_bulk_consumer SC T unit CE) RP DP RC DC,
  lawful_producer (blocking_bulk_producer P) RP DP -> lawful_consumer (blocking_bulk_consumer C) (collect_machine T unit CE) RC DC ->
  forall xs fuel sp k sc kc w, RP sp xs (Ok tt) k -> RC sc [] kc w -> length xs < fuel ->
  exists sp' sc', run (piping how fuel P C) (sp, sc) = Ret ((sp', sc'), Ok tt) /\ DC sc' xs.
Proof.
  intros SP SC T PE CE how P C RP DP RC DC LP LC xs fuel sp k sc kc w HP HC Hf. destruct how; cbn [piping].
  - pose proof (@pipe_lawful _ _ _ _ _ _ _ _ _ _ _ _ _ _ LP LC xs fuel sp (Ok tt) k sc [] kc w HP HC Hf) as H. unfold pipe_effect in H. rewrite collect_feed in H. cbn in H.
    destruct H as (sp' & sc' & E & _ & HD). exists sp', sc'. split; [|exact HD]. rewrite run_pipe. exact E.
  - pose proof (@bulk_pipe_lawful _ _ _ _ _ _ _ _ _ _ _ _ _ _ LP LC fuel xs sp (Ok tt) k sc [] kc w HP HC Hf) as H. unfold pipe_effect in H. rewrite collect_feed in H. cbn in H.
    destruct H as (sp' & sc' & p'' & E & _ & _ & HD). exists sp', sc'. split; [|exact HD]. rewrite run_bulk_pipe. exact E.
Qed.

Lemma run_collect : forall S V E (HV : eq_dec V) (f : fut (S * into_vec V) (res unit E)) expected s,
  (exists s', run (collect f expected) s = Ret (s', tt)) <-> exists s', run f s = Ret (s', Ok tt) /\ into_vec_as_ref (snd s') = Ret expected.
Proof.
  intros S V E HV f expected s. unfold collect. rewrite run_await. destruct (run f s) as [[s1 [[]|e]]| |]; cbn [bind].
  - rewrite run_await, run_attempt. cbn [unwrap bind]. rewrite run_await. unfold get. rewrite run_sync. cbn [bind]. rewrite run_attempt.
    destruct (into_vec_as_ref (snd s1)) as [v| |] eqn:Ev; cbn [bind].
    + unfold assert_eq, assert, eqb. destruct (eqd v expected) as [->|Hne]; cbn [bind].
      * split; intros _; eexists; eauto.
      * split; [intros (s' & H); discriminate|]. intros (s' & [= <-] & H2). congruence.
    + split; [intros (s' & H); discriminate|]. intros (s' & [= <-] & H2). congruence.
    + split; [intros (s' & H); discriminate|]. intros (s' & [= <-] & H2). congruence.
  - rewrite run_await, run_attempt. cbn [unwrap bind]. split; [intros (s' & H); discriminate|]. intros (s' & [=] & _).
  - split; [intros (s' & H); discriminate|]. intros (s' & H & _). discriminate.
  - split; [intros (s' & H); discriminate|]. intros (s' & H & _). discriminate.
Qed.

Lemma a_into_vec_lawful : forall T (d : T), lawful_consumer (blocking_bulk_consumer (a_into_vec d)) (collect_machine T unit infallible) iv_rel iv_end.
Proof. intros T d. eapply same_lawful_consumer; [apply same_into_vec|apply into_vec_lawful]. Qed.

Lemma iv_rel_new : forall T, iv_rel (@into_vec_new T) [] 0 [].
Proof. intros T. cbv. auto. Qed.

(** What a receiver collects. *)
Lemma piping_receives : forall SP T PE (HT : eq_dec T) how fuel (x0 : T) (P : a_bulk_producer SP T unit PE) RP DP, lawful_producer (blocking_bulk_producer P) RP DP ->
  forall expected xs sp k, length expected < fuel -> RP sp xs (Ok tt) k ->
  (exists s', run (collect (piping how fuel P (a_into_vec x0)) expected) (sp, into_vec_new) = Ret (s', tt)) <-> xs = expected.
Proof.
  intros SP T PE HT how fuel x0 P RP DP LP expected xs sp k Hf HR. rewrite run_collect.
  assert (HX : forall fuel, length xs < fuel -> exists s', run (piping how fuel P (a_into_vec x0)) (sp, into_vec_new) = Ret (s', Ok tt) /\ into_vec_as_ref (snd s') = Ret xs).
  { intros n Hn. destruct (@piping_collects _ _ _ _ _ how _ _ _ _ _ _ LP (a_into_vec_lawful x0) xs n sp k _ _ _ HR (iv_rel_new T) Hn) as (sp' & sc' & E & HD).
    exists (sp', sc'). split; [exact E|]. apply (iv_rel_read HD). }
  split.
  - intros (s' & E & H). destruct (HX (fuel + Datatypes.S (length xs))) as (s2 & E2 & H2); [lia|].
    rewrite (run_piping_more _ _ _ _ _ _ E) in E2. injection E2 as <-. congruence.
  - intros ->. exact (HX fuel Hf).
Qed.

(** ** Encoding and decoding *)
Lemma lawful_accepts_all : forall S A T F E (C : bulk_consumer S T F E) (M : machine A T F E) R D, lawful_consumer C M R D ->
  forall xs s a k w a' n, R s a k w -> m_feed M xs a = (a', n, None) -> exists s', accepts C s xs s' /\ R s' a' 0 [].
Proof.
  intros S A T F E C M R D [L _]. induction xs as [|x xs IH]; intros s a k w a' n HR H; cbn [m_feed] in H.
  - injection H as <- <-. exists s. split; [constructor|]. exact (lc_forget L HR).
  - pose proof (lc_consume L x HR) as H1. destruct (m_step M x a) as [a1 [[]|e]]; [|discriminate]. destruct H1 as (s1 & E1 & H1).
    destruct (m_feed M xs a1) as [[a2 m] [e|]] eqn:E2; [discriminate|]. injection H as <- <-.
    destruct (IH _ _ _ _ _ _ H1 E2) as (s2 & H2 & H3). exists s2. split; [econstructor; eauto|exact H3].
Qed.

Lemma same_accepts : forall S T F E (C C' : consumer S T F E), same_consumer C C' -> forall s xs s', accepts C' s xs s' -> accepts C s xs s'.
Proof. intros S T F E C C' [H _] s xs s' A. induction A as [|s x s1 xs s2 E1 A IH]; econstructor; eauto. now rewrite H. Qed.
Lemma same_emits : forall S T F E (P P' : producer S T F E), same_producer P P' -> forall s xs s', emits P' s xs s' -> emits P s xs s'.
Proof. intros S T F E P P' H s xs s' A. induction A as [|s x s1 xs s2 E1 A IH]; econstructor; eauto. now rewrite H. Qed.

Section Codec.
  Context (w : wrapper).
  Notation enc := (to_bytes w).
  Notation dec := (@endian_parse infallible w (from_bytes w)).

  Lemma encoded_pipes : forall SP SC PE CE (P : a_bulk_producer SP (num (wrapped w)) unit PE) (C : a_bulk_consumer SC byte unit CE) RP DP RC DC,
    lawful_producer (blocking_bulk_producer P) RP DP -> lawful_consumer (blocking_bulk_consumer C) (collect_machine byte unit CE) RC DC ->
    forall vs fuel sp k sc kc wr, RP sp vs (Ok tt) k -> RC sc [] kc wr -> length vs < fuel ->
    exists sp' sc', run (a_pipe fuel P (a_encoder (a_endian_encode w) C)) (sp, sc) = Ret ((sp', sc'), Ok tt) /\ DC sc' (enc_all enc vs).
  Proof.
    intros SP SC PE CE P C RP DP RC DC LP LC vs fuel sp k sc kc wr HP HC Hf.
    destruct (@lawful_emits_all _ _ _ _ _ _ _ _ _ _ _ LP HP) as (sp1 & sp' & E1 & E2).
    destruct (@encoder_accepts _ _ _ _ _ _ _ (endian_lawful_encode w) _ _ _ _ LC vs sc [] kc wr (enc_all enc vs) (length (enc_all enc vs)) HC) as (sc1 & A1 & H1).
    { now rewrite collect_feed. }
    destruct (lc_close (lc_core LC) tt H1) as (sc' & E3 & HD). cbn in E3, HD. exists sp', sc'. split; [|exact HD].
    rewrite run_pipe. apply (@pipe_complete _ _ _ _ _ _ _ _ vs); [|exact Hf]. change (@Ok unit (pipe_error PE CE) tt) with (@map_err unit CE (pipe_error PE CE) PipeConsumer (Ok tt)).
    eapply piped_final; [exact E1| |exact E2|exact E3]. eapply same_accepts; [|exact A1]. apply same_encoder, endian_encode_completes.
  Qed.

  Lemma decodes_encoded : forall F E xs (l : res F E) vs last, decodes dec xs l vs last -> forall f, last = Ok f -> xs = enc_all enc vs.
  Proof.
    intros F E xs l vs last H f. induction H as [l|xs l v n vs last Hne Hd H IH|xs l o n Hne Hd|xs l Hne Hd]; intros Hl; try discriminate; [reflexivity|].
    destruct (canonic_agrees (endian_canonic w) _ _ _ Hd) as [_ E1]. unfold enc_all in *. cbn [map concat]. rewrite E1, <- IH by exact Hl. symmetry. apply firstn_skipn.
  Qed.

  Lemma parse_positive : forall xs v n, dec xs = Parsed v n -> 1 <= n.
  Proof.
    intros xs v n. unfold endian_parse. destruct (_ <=? _); [|discriminate]. intros [= _ <-]. rewrite width_bits. destruct w; vm_compute; repeat constructor.
  Qed.

  Lemma enc_positive : forall v, enc v <> [].
  Proof. intros v H. apply (f_equal (@length byte)) in H. rewrite length_to_bytes, width_bits in H. destruct w; discriminate H. Qed.

  Lemma decoder_receives : forall SP PE fuel (P : a_bulk_producer SP byte unit PE) RP DP, lawful_producer (blocking_bulk_producer P) RP DP ->
    forall (d : num (wrapped w)) expected xs sp k, length expected < fuel -> RP sp xs (Ok tt) k ->
    (exists s', run (collect (a_pipe fuel (a_decoder (a_endian_decode w) P) (a_into_vec d)) expected) (sp, into_vec_new) = Ret (s', tt)) <-> xs = enc_all enc expected.
  Proof.
    intros SP PE fuel P RP DP LP d expected xs sp k Hf HR. rewrite run_collect.
    assert (HX : forall vs last, decodes dec xs (Ok tt) vs last -> forall fuel, length vs < fuel -> exists s', match last with
      | Ok tt => run (a_pipe fuel (a_decoder (a_endian_decode w) P) (a_into_vec d)) (sp, into_vec_new) = Ret (s', Ok tt) /\ into_vec_as_ref (snd s') = Ret vs
      | Err e => run (a_pipe fuel (a_decoder (a_endian_decode w) P) (a_into_vec d)) (sp, into_vec_new) = Ret (s', Err (PipeProducer e))
      end).
    { intros vs last HD n Hn.
      destruct (@decoder_decodes _ _ _ _ _ _ _ (endian_lawful_decode w) _ _ _ LP _ _ _ _ HD sp k HR) as (sp1 & sp' & E1 & E2 & _).
      destruct (@lawful_accepts_all _ _ _ _ _ _ _ _ _ (a_into_vec_lawful d) vs into_vec_new [] 0 [] vs (length vs) (iv_rel_new _)) as (sc1 & A1 & H1).
      { now rewrite collect_feed. }
      assert (E1' : emits (blocking_buffered_producer (a_decoder (a_endian_decode w) P)) sp vs sp1).
      { eapply same_emits; [|exact E1]. apply same_decoder, endian_decode_completes. }
      assert (E2' : p_produce (blocking_buffered_producer (a_decoder (a_endian_decode w) P)) sp1 = Ret (sp', report_last last)).
      { rewrite <- E2. apply same_decoder, endian_decode_completes. }
      destruct last as [[]|e].
      - destruct (lc_close (lc_core (a_into_vec_lawful d)) tt H1) as (sc' & E3 & HI). cbn in HI. exists (sp', sc'). split; [|apply (iv_rel_read HI)].
        rewrite run_pipe. apply (@pipe_complete _ _ _ _ _ _ _ _ vs); [|exact Hn].
        change (@Ok unit (pipe_error (decode_error unit PE infallible) infallible) tt) with (@map_err unit infallible (pipe_error (decode_error unit PE infallible) infallible) PipeConsumer (Ok tt)).
        eapply piped_final; [exact E1'|exact A1|exact E2'|exact E3].
      - exists (sp', sc1). rewrite run_pipe. apply (@pipe_complete _ _ _ _ _ _ _ _ vs); [|exact Hn].
        eapply piped_producer_error; [exact E1'|exact A1|exact E2']. }
    split.
    - intros (s' & E & H). destruct (@decodes_total _ infallible _ _ dec (Ok tt : res unit PE) (@endian_reads infallible w (from_bytes w)) parse_positive xs) as (vs & last & HD).
      destruct (HX vs last HD (fuel + Datatypes.S (length vs))) as (s2 & H2); [lia|].
      rewrite run_pipe in E. apply (@pipe_more _ _ _ _ _ _ _ _ _ (Datatypes.S (length vs))) in E.
      destruct last as [[]|e]; rewrite run_pipe, E in H2; [|discriminate]. destruct H2 as [[= <-] H2]. rewrite H in H2. injection H2 as ->.
      eapply decodes_encoded; [exact HD|reflexivity].
    - intros ->. apply (HX expected (map_err Producer (Ok tt)) (decodes_all (codec_reads (endian_codec w)) (codec_round_trips (endian_codec w)) enc_positive _ _) fuel Hf).
  Qed.
End Codec.

Lemma encoded_pieces : forall w vs pieces, Forall2 (encodes w) vs pieces -> concat pieces = enc_all (to_bytes w) vs.
Proof.
  intros w vs pieces H. unfold enc_all. f_equal. induction H as [|v p vs pieces H _ IH]; [reflexivity|]. cbn [map]. apply encodes_iff in H. now rewrite H, <- IH.
Qed.

(** ** The tasks *)
Definition link_send_view (T L : Type) := snd_view L (writer_view (Q := fixed T) (@send_view T)).
Definition link_log_view (T L : Type) := snd_view L (writer_view (Q := fixed T) (@log_view (conn T * list (conn T)) T)).
Definition link_recv_view (T V : Type) := fst_view (into_vec V) (reader_view (Q := fixed T) (@recv_view T)).
Definition link_buf_recv_view (T V : Type) := fst_view (into_vec V) (br_view (T := T) (@recv_view T)).

Lemma delivers_good : forall T (x0 : T) capacity wait input SR SR2 SS SS2 (hr : holds T SR) (vr : view _ _ SR SR2) (hs : holds T SS) (vs : view _ _ SS SS2)
    (vg : view (list (wcall T)) unit SS2 SS2) receive send,
  1 <= capacity ->
  (forall c s, h_set hr c s = v_set vr c s) -> (forall s, h_conn hr s = v_end vr s) -> (forall c s, v_end vr (v_set vr c s) = c) ->
  (forall c s, h_set hs c s = v_set vs c s) -> (forall s, h_conn hs s = v_end vs s) -> (forall c s, v_end vs (v_set vs c s) = c) ->
  (forall sc s1 s2, v_rel vs sc s1 s2 -> send_rel (v_end vs s1) (v_end vg s2)) -> (forall sc s, v_rel vg sc s s) ->
  match receive with Running f s => good_r input vr wait f s [] | Done => False end ->
  match send with Running f s => good_s capacity input vs vg wait f s /\ cn_closed (v_end vs s) = false /\ cn_sent (v_end vs s) = [] | Done => False end ->
  delivers hr hs capacity wait input receive send.
Proof.
  intros T x0 capacity wait input SR SR2 SS SS2 hr vr hs vs vg receive send Hcap H1 H2 H3 H4 H5 H6 H7 H8 HR HS limits. cbv zeta. split; [|split].
  - intros schedule. exact (@runs_safely T x0 capacity Hcap input _ _ _ _ hr vr H1 H2 H3 hs vs vg H4 H5 H6 H7 H8 wait receive send HR HS limits schedule).
  - intros polls. exact (@blocks_until_done T x0 capacity Hcap input _ _ _ _ hr vr H1 H2 H3 hs vs vg H4 H5 H6 H7 H8 wait receive send HR HS limits polls).
  - intros prefer. exact (@spawned_until_done T x0 capacity Hcap input _ _ _ _ hr vr H1 H2 H3 hs vs vg H4 H5 H6 H7 H8 wait receive send HR HS limits prefer).
Qed.

Section Senders.
  Context {T L : Type} (x0 : T) (fuel wait capacity qcap : nat) (Hq : 1 <= qcap < fuel).

  Definition link_script_consumer := a_writer_consumer (T := T) (a_logged (script_writer capacity wait)) (fixed_queue T) fuel.

  Lemma link_script_lawful : lawful_consumer (blocking_bulk_consumer link_script_consumer) (collect_machine T unit io_error) (ww_rel (fixed_R qcap)) (@ww_end _ _ _).
  Proof.
    eapply same_lawful_consumer; [apply same_logged_writer|].
    apply (working_writer_lawful (@script_writer_works T capacity wait) (@fixed_lawful T qcap)); lia.
  Qed.

  Lemma link_script_start : forall (c : conn T) (sc : list (conn T)), ww_rel (fixed_R qcap) (mk_writer_state ((c, sc), []) (fixed_new x0 qcap)) [] 0 [].
  Proof. intros c sc. apply ww_rel_new. apply fixed_new_R. lia. Qed.

  Lemma good_sender : forall (f1 : fut (L * writer_state (conn T) (fixed T)) unit) f2 s input,
    corr env_but_sent (G_s capacity) (B_s capacity) wait (link_send_view T L) eq f1 f2 -> grows (link_log_view T L) f2 ->
    (forall c sc, exists s', run f2 (s, mk_writer_state ((c, sc), []) (fixed_new x0 qcap)) = Ret (s', tt) /\ ww_end (snd s') input) ->
    good_s capacity input (link_send_view T L) (link_log_view T L) wait f1 (link_sender x0 qcap s) /\
    cn_closed (v_end (link_send_view T L) (link_sender x0 qcap s)) = false /\ cn_sent (v_end (link_send_view T L) (link_sender x0 qcap s)) = [].
  Proof.
    intros f1 f2 s input HC HG HE. split; [|split; reflexivity]. intros e sc. set (c1 := env_but_sent e (conn_new [])).
    destruct (HE c1 sc) as (s' & E & H1 & (before & H2)).
    exists (s, mk_writer_state ((c1, sc), []) (fixed_new x0 qcap)), f2, s'.
    split; [cbn; unfold send_rel; splits; try reflexivity; intros []|]. split; [exact HC|]. split; [exact HG|]. split; [exact E|]. split; [exact H1|].
    cbn. rewrite H2. apply in_or_app. right. now left.
  Qed.

  Lemma corr_link_consumer : corr_consumer env_but_sent (G_s capacity) (B_s capacity) wait (writer_view (Q := fixed T) (@send_view T))
    (a_conn_consumer fuel wait capacity) link_script_consumer.
  Proof. apply corr_writer_consumer; [apply G_s_refl|apply G_s_trans|]. apply corr_conn_writer, le_n. Qed.
  Lemma grows_link_consumer : forall n, corr_consumer (@same_env (list (wcall T))) (@prefix (wcall T)) (fun _ => True) n
    (writer_view (Q := fixed T) (@log_view (conn T * list (conn T)) T)) link_script_consumer link_script_consumer.
  Proof. intros n. apply corr_writer_consumer; [apply prefix_refl|apply prefix_trans|]. split; [intros buf|split]; apply log_grows. Qed.

  Lemma corr_then_unwrap : forall P C (env : C -> P -> P) (G : P -> P -> Prop) B N S1 S2 E (v : view P C S1 S2) (f1 : fut S1 (res unit E)) f2,
    (forall p, G p p) -> (forall p q r, G p q -> G q r -> G p r) -> corr env G B N v eq f1 f2 ->
    corr env G B N v eq (let! r := f1 in attempt (unwrap r)) (let! r := f2 in attempt (unwrap r)).
  Proof.
    intros P C env G B N S1 S2 E v f1 f2 HGr HGt H. eapply corr_await with (V := eq); [exact HGt|exact H|]. intros r ? <-. apply corr_attempt. exact HGr.
  Qed.

  Lemma link_send_good : forall PE how (P : a_bulk_producer L T unit PE) R D, bulk_producer_pending (fun _ => False) P -> lawful_producer (blocking_bulk_producer P) R D ->
    forall input s k, R s input (Ok tt) k -> length input < fuel ->
    match link_send x0 fuel wait capacity qcap how P s with
    | Running f s => good_s capacity input (link_send_view T L) (link_log_view T L) wait f s /\ cn_closed (v_end (link_send_view T L) s) = false /\ cn_sent (v_end (link_send_view T L) s) = []
    | Done => False
    end.
  Proof.
    intros PE how P R D HP LP input s k HR Hf. cbn [link_send]. apply good_sender with (f2 := let! r := piping how fuel P link_script_consumer in attempt (unwrap r)).
    - apply corr_then_unwrap; [apply G_s_refl|apply G_s_trans|]. apply corr_piping_into; [apply G_s_refl|apply G_s_trans|exact HP|apply corr_link_consumer].
    - intros n. apply corr_then_unwrap; [apply prefix_refl|apply prefix_trans|]. apply corr_piping_into; [apply prefix_refl|apply prefix_trans|exact HP|apply grows_link_consumer].
    - intros c sc. destruct (@piping_collects _ _ _ _ _ how _ _ _ _ _ _ LP link_script_lawful input fuel s k _ _ _ HR (link_script_start c sc) Hf) as (sp' & sc' & E & HD).
      exists (sp', sc'). split; [|exact HD]. rewrite run_await, E. cbn [bind]. now rewrite run_attempt.
  Qed.
End Senders.

Lemma link_send_encoded_good : forall L PE w fuel wait capacity qcap (P : a_bulk_producer L (num (wrapped w)) unit PE) R D,
  1 <= qcap < fuel -> bulk_producer_pending (fun _ => False) P -> lawful_producer (blocking_bulk_producer P) R D ->
  forall vs s k, R s vs (Ok tt) k -> length vs < fuel ->
  match link_send_encoded w fuel wait capacity qcap P s with
  | Running f s => good_s capacity (enc_all (to_bytes w) vs) (link_send_view byte L) (link_log_view byte L) wait f s /\
      cn_closed (v_end (link_send_view byte L) s) = false /\ cn_sent (v_end (link_send_view byte L) s) = []
  | Done => False
  end.
Proof.
  intros L PE w fuel wait capacity qcap P R D Hq HP LP vs s k HR Hf. cbn [link_send_encoded].
  apply good_sender with (f2 := let! r := a_pipe fuel P (a_encoder (a_endian_encode w) (link_script_consumer fuel wait capacity)) in attempt (unwrap r)).
  - apply corr_then_unwrap; [apply G_s_refl|apply G_s_trans|]. apply corr_pipe_into; [apply G_s_refl|apply G_s_trans|apply HP|].
    apply corr_encoder; [|apply corr_link_consumer]. apply corr_endian_encode; [apply G_s_refl|apply G_s_trans].
  - intros n. apply corr_then_unwrap; [apply prefix_refl|apply prefix_trans|]. apply corr_pipe_into; [apply prefix_refl|apply prefix_trans|apply HP|].
    apply corr_encoder; [|apply grows_link_consumer]. apply corr_endian_encode; [apply prefix_refl|apply prefix_trans].
  - intros c sc. destruct (@encoded_pipes w _ _ _ _ _ _ _ _ _ _ LP (@link_script_lawful byte fuel wait capacity qcap Hq) vs fuel s k _ _ _ HR (link_script_start x00 Hq c sc) Hf) as (sp' & sc' & E & HD).
    exists (sp', sc'). split; [|exact HD]. rewrite run_await, E. cbn [bind]. now rewrite run_attempt.
Qed.

Section Receivers.
  Context {T : Type} (x0 : T) (fuel wait qcap : nat) (Hq : 1 <= qcap).

  Definition link_script_producer := a_reader_producer (T := T) (script_reader wait) (fixed_queue T) x0.
  Definition link_script_buf_producer := a_buf_reader_producer (T := T) (buffered_reader (script_reader wait) x0 qcap) x0.

  Lemma link_script_producer_lawful : lawful_producer (blocking_bulk_producer link_script_producer) (rd_R script_R (fixed_R qcap)) any_state.
  Proof.
    eapply same_lawful_producer; [apply same_reader|]. exact (rd_lawful x0 (@script_reader_lawful T wait) (@fixed_lawful T qcap) Hq).
  Qed.
  Lemma link_script_producer_start : forall c sc, rd_R script_R (fixed_R qcap) (mk_reader_state (c, sc) (fixed_new x0 qcap)) (stream c sc) (Ok tt) 0.
  Proof. intros c sc. exists [], (stream c sc). splits; cbn; auto; [apply fixed_new_R; lia|now split]. Qed.

  Lemma link_script_buf_lawful : lawful_buf_reader (blocking_buf_reader (buffered_reader (script_reader wait) x0 qcap)) (bufd_R (@script_R T)).
  Proof. apply buffered_reader_lawful; [apply script_reader_lawful|exact Hq|apply script_reader_sticky]. Qed.

  Lemma corr_link_producer : corr_producer env_all G_r B_r wait (reader_view (Q := fixed T) (@recv_view T)) (a_conn_producer x0 wait) link_script_producer.
  Proof. apply corr_reader_producer; [apply G_r_refl|apply G_r_trans|]. apply corr_conn_reader, le_n. Qed.
  Lemma corr_link_buf_producer : corr_producer env_all G_r B_r wait (br_view (T := T) (@recv_view T)) (a_conn_buf_producer x0 wait qcap) link_script_buf_producer.
  Proof.
    apply corr_buf_reader_producer; [apply G_r_refl|apply G_r_trans|]. apply corr_buffered_reader; [apply G_r_refl|apply G_r_trans|]. apply corr_conn_reader, le_n.
  Qed.

  Lemma good_receiver : forall V (f1 : fut (reader_state (conn T) (fixed T) * into_vec V) unit) f2 input,
    corr env_all G_r B_r wait (link_recv_view T V) eq f1 f2 ->
    (forall c sc, (exists s', run f2 (mk_reader_state (c, sc) (fixed_new x0 qcap), into_vec_new) = Ret (s', tt)) <-> stream c sc = input) ->
    good_r input (link_recv_view T V) wait f1 (link_receiver x0 qcap) [].
  Proof.
    intros V f1 f2 input HC HE c sc. exists (mk_reader_state (c, sc) (fixed_new x0 qcap), into_vec_new), f2.
    split; [cbn; splits; reflexivity|]. split; [exact HC|]. cbn [app]. apply HE.
  Qed.
  Lemma good_buf_receiver : forall V (f1 : fut (br (conn T) T * into_vec V) unit) f2 input,
    corr env_all G_r B_r wait (link_buf_recv_view T V) eq f1 f2 ->
    (forall c sc, (exists s', run f2 (mk_br (c, sc) [], into_vec_new) = Ret (s', tt)) <-> stream c sc = input) ->
    good_r input (link_buf_recv_view T V) wait f1 link_buf_receiver [].
  Proof.
    intros V f1 f2 input HC HE c sc. exists (mk_br (c, sc) [], into_vec_new), f2.
    split; [cbn; splits; reflexivity|]. split; [exact HC|]. cbn [app]. apply HE.
  Qed.

  Context {HT : eq_dec T}.

  Lemma link_receive_good : forall how input, length input < fuel ->
    match link_receive x0 fuel wait qcap how input with Running f s => good_r input (link_recv_view T T) wait f s [] | Done => False end.
  Proof.
    intros how input Hf. cbn [link_receive]. apply good_receiver with (f2 := collect (piping how fuel link_script_producer (a_into_vec x0)) input).
    - apply corr_collect; [apply G_r_refl|apply G_r_trans|]. apply corr_piping_from; [apply G_r_refl|apply G_r_trans|apply pending_into_vec|apply corr_link_producer].
    - intros c sc. eapply piping_receives; [apply link_script_producer_lawful|exact Hf|apply link_script_producer_start].
  Qed.
  Lemma link_buf_receive_good : forall how input, length input < fuel ->
    match link_buf_receive x0 fuel wait qcap how input with Running f s => good_r input (link_buf_recv_view T T) wait f s [] | Done => False end.
  Proof.
    intros how input Hf. cbn [link_buf_receive]. apply good_buf_receiver with (f2 := collect (piping how fuel link_script_buf_producer (a_into_vec x0)) input).
    - apply corr_collect; [apply G_r_refl|apply G_r_trans|]. apply corr_piping_from; [apply G_r_refl|apply G_r_trans|apply pending_into_vec|apply corr_link_buf_producer].
    - intros c sc. eapply piping_receives; [|exact Hf|].
      + eapply same_lawful_producer; [apply same_buf_reader|exact (br_lawful x0 link_script_buf_lawful)].
      + split; [|exact Logic.I]. exists (stream c sc). cbn. split; [reflexivity|]. split; [now split|apply le_n].
  Qed.
End Receivers.

Section Decoded.
  Context (w : wrapper) (fuel wait qcap : nat) (Hq : 1 <= qcap) (vs : list (num (wrapped w))) (Hf : length vs < fuel).

  Lemma link_receive_decoded_good :
    match link_receive_decoded w fuel wait qcap vs with
    | Running f s => good_r (enc_all (to_bytes w) vs) (link_recv_view byte (num (wrapped w))) wait f s []
    | Done => False
    end.
  Proof.
    cbn [link_receive_decoded]. apply good_receiver with (f2 := collect (a_pipe fuel (a_decoder (a_endian_decode w) (link_script_producer x00 wait)) (a_into_vec (zero w))) vs).
    - apply corr_collect; [apply G_r_refl|apply G_r_trans|]. apply corr_pipe_from; [apply G_r_refl|apply G_r_trans|apply pending_into_vec|].
      apply corr_decoder; [apply G_r_refl|apply G_r_trans| |apply corr_link_producer]. apply corr_endian_decode; [apply G_r_refl|apply G_r_trans].
    - intros c sc. eapply decoder_receives; [apply (@link_script_producer_lawful byte x00 wait qcap Hq)|exact Hf|apply (@link_script_producer_start byte x00 qcap Hq)].
  Qed.
  Lemma link_buf_receive_decoded_good :
    match link_buf_receive_decoded w fuel wait qcap vs with
    | Running f s => good_r (enc_all (to_bytes w) vs) (link_buf_recv_view byte (num (wrapped w))) wait f s []
    | Done => False
    end.
  Proof.
    cbn [link_buf_receive_decoded]. apply good_buf_receiver with (f2 := collect (a_pipe fuel (a_decoder (a_endian_decode w) (link_script_buf_producer x00 wait qcap)) (a_into_vec (zero w))) vs).
    - apply corr_collect; [apply G_r_refl|apply G_r_trans|]. apply corr_pipe_from; [apply G_r_refl|apply G_r_trans|apply pending_into_vec|].
      apply corr_decoder; [apply G_r_refl|apply G_r_trans| |apply corr_link_buf_producer]. apply corr_endian_decode; [apply G_r_refl|apply G_r_trans].
    - intros c sc. eapply decoder_receives; [|exact Hf|].
      + eapply same_lawful_producer; [apply same_buf_reader|exact (br_lawful x00 (@link_script_buf_lawful byte x00 wait qcap Hq))].
      + split; [|exact Logic.I]. exists (stream c sc). cbn. split; [reflexivity|]. split; [now split|apply le_n].
  Qed.
End Decoded.

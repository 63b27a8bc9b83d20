(** Property C93: the rule of lib.rs 33 is passed on to what is inside. *)
From Coq Require Import Bool List Arith Lia.
From Coq.Init Require Import Byte.
From Verif Require Import Prelude QueueModel Traits Contracts BasicModel AdaptorModel AdaptorSpec ScramblerModel CodecModel EndianModel SliceModel IoModel.
From Verif Require Import AsyncModel AsyncSpec AsyncAdaptorModel AsyncMergeModel AsyncMergeSpec AsyncIoModel SharedModel SharedSpec AsyncSharedModel AbideSpec AbideProofs.
Import ListNotations.

Ltac all := repeat match goal with |- _ /\ _ => split end.

(** Watching an object changes nothing of what it does. *)
Theorem C93_watching : forall (S X : Type) (f : fut S X) st s, (let* (s', x) := run (watch f) (s, st) in Ret (fst s', x)) = run f s.
Proof. exact watch_same. Qed.
Print Assumptions C93_watching.

(** Adaptors: whoever calls the methods of an adaptor one after the other, each polled to completion, and after dropping a future never
    again, does not make it break the same rule for the object inside. For arbitrary objects, and for adaptors in whatever state. *)
Theorem C93_producers :
  forall (S T F B E : Type) (P : a_bulk_producer S T F E) dbg fuel,
  never_misuses (ap_future (a_limit_producer (watched_bulk_producer P))) (fun s => snd (lim_inner s)) /\
  never_misuses (ap_future (a_map_final_producer (B := B) (watched_bulk_producer P))) (fun s => snd (wf_inner s)) /\
  never_misuses (ap_future (a_map_error_producer (B := B) (watched_bulk_producer P))) (fun s => snd (wf_inner s)) /\
  never_misuses (ap_future (a_invariant_producer (watched_bulk_producer P))) (fun s => snd (inv_inner s)) /\
  never_misuses (ap_future (a_pscr_producer dbg fuel (watched_bulk_producer P))) (fun s => snd (ps_inner s)).
Proof.
  intros S T F B E P dbg fuel. pose proof (watched_keeps_bulk_producer _ _ _ _ P) as H. all; apply never_misuses_intro; intros o; apply keeps_ap_future.
  - exact (keeps_limit_producer _ _ _ H).
  - exact (keeps_map_final_producer _ _ _ _ H).
  - exact (keeps_map_error_producer _ _ _ _ H).
  - exact (keeps_invariant_producer _ _ _ H).
  - exact (keeps_pscr _ _ _ _ _ H).
Qed.
Print Assumptions C93_producers.

Theorem C93_consumers :
  forall (S T F B E : Type) (C : a_bulk_consumer S T F E) dbg d fuel,
  never_misuses (ac_future (a_limit_consumer (watched_bulk_consumer C))) (fun s => snd (lim_inner s)) /\
  never_misuses (ac_future (a_map_final_consumer (B := B) (watched_bulk_consumer C))) (fun s => snd (wf_inner s)) /\
  never_misuses (ac_future (a_map_error_consumer (B := B) (watched_bulk_consumer C))) (fun s => snd (wf_inner s)) /\
  never_misuses (ac_future (a_invariant_consumer (watched_bulk_consumer C))) (fun s => snd (inv_inner s)) /\
  never_misuses (ac_future (a_cscr_consumer dbg d fuel (watched_bulk_consumer C))) (fun s => snd (cs_inner s)).
Proof.
  intros S T F B E C dbg d fuel. pose proof (watched_keeps_bulk_consumer _ _ _ _ C) as H. all; apply never_misuses_intro; intros o; apply keeps_ac_future.
  - exact (keeps_limit_consumer _ _ _ H).
  - exact (keeps_map_final_consumer _ _ _ _ H).
  - exact (keeps_map_error_consumer _ _ _ _ H).
  - exact (keeps_invariant_consumer _ _ _ H).
  - exact (keeps_cscr _ _ _ _ _ _ H).
Qed.
Print Assumptions C93_consumers.

Theorem C93_map_item :
  forall (S T U W F E : Type),
  (forall (P : a_buffered_producer S T F E) (f : W -> T -> W * U),
     never_misuses (abp_future (a_map_item_producer (watched_buffered_producer P) f)) (fun s => snd (mi_inner s))) /\
  (forall (C : a_buffered_consumer S T F E) (f : W -> U -> W * T),
     never_misuses (abc_future (a_map_item_consumer (watched_buffered_consumer C) f)) (fun s => snd (mi_inner s))).
Proof.
  intros S T U W F E. split; intros G f; apply never_misuses_intro; intros o.
  - apply keeps_abp_future. exact (keeps_map_item_producer _ _ _ _ _ _ (watched_keeps_buffered_producer _ _ _ _ G)).
  - apply keeps_abc_future. exact (keeps_map_item_consumer _ _ _ _ _ _ (watched_keeps_buffered_consumer _ _ _ _ G)).
Qed.
Print Assumptions C93_map_item.

(** Adaptors for readers and writers, with any queue. *)
Theorem C93_io :
  forall (S Q T : Type) (I : queue Q T) (x0 : T),
  (forall Rd : a_buf_reader S T, never_misuses (ap_future (a_buf_reader_producer (watched_buf_reader Rd) x0)) snd) /\
  (forall Rd : a_reader S T, never_misuses (ap_future (a_reader_producer (watched_reader Rd) I x0)) (fun s => snd (rs_reader s))) /\
  (forall (W : a_writer S T) fuel, never_misuses (ac_future (a_writer_consumer (watched_writer W) I fuel)) (fun s => snd (ws_writer s))).
Proof.
  intros S Q T I x0. all; intros; apply never_misuses_intro; intros o.
  - apply keeps_ap_future. exact (keeps_buf_reader_producer _ _ _ x0 (watched_keeps_buf_reader _ _ Rd)).
  - apply keeps_ap_future. exact (keeps_reader_producer _ _ _ _ I x0 (watched_keeps_reader _ _ Rd)).
  - apply keeps_ac_future. exact (keeps_writer_consumer _ _ _ _ I fuel (watched_keeps_writer _ _ W)).
Qed.
Print Assumptions C93_io.

(** Codecs: [Encoder], [Decoder] and the relative ones pass the rule on if their encoding or decoding function does; those of the endian
    wrappers do. *)
Theorem C93_codecs :
  forall (S F E V O RT : Type) (C : a_bulk_consumer S byte F E) (P : a_bulk_producer S byte F E)
    (e : a_encode_fn V) (d : a_decode_fn V O) (re : RT -> a_encode_fn V) (rd : RT -> a_decode_fn V O),
  keeps_encode e -> keeps_decode d -> (forall r, keeps_encode (re r)) -> (forall r, keeps_decode (rd r)) ->
  never_misuses (abc_future (a_encoder e (watched_bulk_consumer C))) snd /\
  never_misuses (abp_future (a_decoder d (watched_bulk_producer P))) snd /\
  never_misuses (abc_future (a_relative_encoder re (watched_bulk_consumer C))) (fun s => snd (rel_inner s)) /\
  never_misuses (abp_future (a_relative_decoder rd (watched_bulk_producer P))) (fun s => snd (rel_inner s)).
Proof.
  intros S F E V O RT C P e d re rd He Hd Hre Hrd. pose proof (watched_keeps_bulk_consumer _ _ _ _ C) as HC. pose proof (watched_keeps_bulk_producer _ _ _ _ P) as HP.
  all; apply never_misuses_intro; intros o; first [apply keeps_abc_future|apply keeps_abp_future].
  - exact (keeps_encoder _ _ _ _ He HC).
  - exact (keeps_decoder _ _ _ _ Hd HP).
  - exact (keeps_relative_encoder _ _ _ _ Hre HC).
  - exact (keeps_relative_decoder _ _ _ _ Hrd HP).
Qed.
Print Assumptions C93_codecs.
Theorem C93_endian : forall w, keeps_encode (a_endian_encode w) /\ keeps_decode (a_endian_decode w).
Proof. intros w. split; [apply endian_encode_keeps|apply endian_decode_keeps]. Qed.
Print Assumptions C93_endian.

(** Pipes and the methods for slices: at no time is there a call of a producer or a consumer before the one before it is complete. *)
Theorem C93_pipes :
  forall (SP SC T F PE CE : Type) (P : a_bulk_producer SP T F PE) (C : a_bulk_consumer SC T F CE) fuel count n sp sc st r,
  let P' := watched_bulk_producer P in let C' := watched_bulk_consumer C in
  let fine (st : (SP * standing) * (SC * standing)) := snd (fst st) <> Misused /\ snd (snd st) <> Misused in
  let s0 := ((sp, AtRest), (sc, AtRest)) in
  (polls n (a_pipe fuel P' C') s0 = Ret (st, r) -> fine st) /\
  (forall r, polls n (a_pipe_at_most P' C' count) s0 = Ret (st, r) -> fine st) /\
  (polls n (a_bulk_pipe fuel P' C') s0 = Ret (st, r) -> fine st) /\
  (forall r, polls n (a_bulk_pipe_at_most fuel P' C' count) s0 = Ret (st, r) -> fine st).
Proof.
  intros SP SC T F PE CE P C fuel count n sp sc st r P' C' fine s0.
  pose proof (watched_keeps_bulk_producer _ _ _ _ P) as HP. pose proof (watched_keeps_bulk_consumer _ _ _ _ C) as HC. fold P' in HP. fold C' in HC.
  assert (G : forall X (f : fut _ X) r, keeps (fun st => at_rest (fst st) /\ at_rest (snd st)) (fun st => not_misused (fst st) /\ not_misused (snd st)) f ->
    polls n f s0 = Ret (st, r) -> fine st).
  { intros X f r0 HK H. assert (H0 := clean_polls _ _ _ _ n f s0 st r0 (conj (rest_ok _ (sp, AtRest) eq_refl) (rest_ok _ (sc, AtRest) eq_refl)) (HK s0 (conj eq_refl eq_refl)) H).
    destruct r0; [|exact H0]. destruct H0 as [H1 H2]. split; apply rest_ok; assumption. }
  destruct HP as [[HP1 HP2] HP3]. destruct HC as [[HC1 HC2] HC3].
  refine (conj _ (conj _ (conj _ _))); intros; eapply G; eauto.
  - apply keeps_pipe; auto using rest_ok.
  - apply keeps_pipe_at_most; auto using rest_ok.
  - apply keeps_bulk_pipe; auto using rest_ok; [split; [split|]; assumption|split; [split|]; assumption].
  - apply keeps_bulk_pipe_at_most; auto using rest_ok; [split; [split|]; assumption|split; [split|]; assumption].
Qed.
Print Assumptions C93_pipes.

Theorem C93_slices :
  forall (S T F E : Type) (P : a_bulk_producer S T F E) (C : a_bulk_consumer S T F E) fuel n (buf : list T) s st,
  let P' := watched_bulk_producer P in let C' := watched_bulk_consumer C in
  (forall r, polls n (a_consume_full_slice C' buf) (s, AtRest) = Ret (st, r) -> snd st <> Misused) /\
  (forall r, polls n (a_bulk_consume_full_slice fuel C' buf) (s, AtRest) = Ret (st, r) -> snd st <> Misused) /\
  (forall r, polls n (a_produce_item P') (s, AtRest) = Ret (st, r) -> snd st <> Misused) /\
  (forall r, polls n (a_overwrite_full_slice P' buf) (s, AtRest) = Ret (st, r) -> snd st <> Misused) /\
  (forall r, polls n (a_bulk_overwrite_full_slice fuel P' buf) (s, AtRest) = Ret (st, r) -> snd st <> Misused).
Proof.
  intros S T F E P C fuel n buf s st P' C'.
  pose proof (watched_keeps_bulk_producer _ _ _ _ P) as HP. pose proof (watched_keeps_bulk_consumer _ _ _ _ C) as HC. fold P' in HP. fold C' in HC.
  assert (G : forall X (f : fut _ X) r, keeps at_rest not_misused f -> polls n f (s, AtRest) = Ret (st, r) -> snd st <> Misused).
  { intros X f r0 HK H. assert (H0 := clean_polls _ _ _ _ n f (s, AtRest) st r0 (rest_ok _ (s, AtRest) eq_refl) (HK (s, AtRest) eq_refl) H).
    destruct r0; [|exact H0]. apply rest_ok; assumption. }
  refine (conj _ (conj _ (conj _ (conj _ _)))); intros r Hr; eapply G; eauto.
  - apply keeps_consume_full_slice. exact (proj1 (proj1 HC)).
  - apply keeps_bulk_consume_full_slice. exact HC.
  - apply keeps_produce_item. exact (proj1 (proj1 HP)).
  - apply keeps_overwrite_full_slice. exact (proj1 (proj1 HP)).
  - apply keeps_bulk_overwrite_full_slice. exact HP.
Qed.
Print Assumptions C93_slices.

(** More generally, for adaptors of adaptors: whatever holds between the calls of an object, and while they are pending, holds between the
    calls of the adaptor. *)
Theorem C93_towers :
  forall (S T F B E : Type) (free ok : S -> Prop) dbg fuel d,
  (forall P : a_bulk_producer S T F E, keeps_bulk_producer free ok P ->
     keeps_bulk_producer (fun s => free (lim_inner s)) (fun s => ok (lim_inner s)) (a_limit_producer P) /\
     keeps_bulk_producer (fun s => free (wf_inner s)) (fun s => ok (wf_inner s)) (a_map_final_producer (B := B) P) /\
     keeps_bulk_producer (fun s => free (wf_inner s)) (fun s => ok (wf_inner s)) (a_map_error_producer (B := B) P) /\
     keeps_bulk_producer (fun s => free (inv_inner s)) (fun s => ok (inv_inner s)) (a_invariant_producer P) /\
     keeps_bulk_producer (fun s => free (ps_inner s)) (fun s => ok (ps_inner s)) (a_pscr_producer dbg fuel P)) /\
  (forall C : a_bulk_consumer S T F E, keeps_bulk_consumer free ok C ->
     keeps_bulk_consumer (fun s => free (lim_inner s)) (fun s => ok (lim_inner s)) (a_limit_consumer C) /\
     keeps_bulk_consumer (fun s => free (wf_inner s)) (fun s => ok (wf_inner s)) (a_map_final_consumer (B := B) C) /\
     keeps_bulk_consumer (fun s => free (wf_inner s)) (fun s => ok (wf_inner s)) (a_map_error_consumer (B := B) C) /\
     keeps_bulk_consumer (fun s => free (inv_inner s)) (fun s => ok (inv_inner s)) (a_invariant_consumer C) /\
     keeps_bulk_consumer (fun s => free (cs_inner s)) (fun s => ok (cs_inner s)) (a_cscr_consumer dbg d fuel C)) /\
  ((forall s, free s -> ok s) -> forall O A (call : O -> fut S A) ops s s' dropped, (forall o, keeps free ok (call o)) -> free s ->
     abiding call ops s = Ret (s', dropped) -> ok s' /\ (dropped = false -> free s')).
Proof.
  intros S T F B E free ok dbg fuel d. refine (conj _ (conj _ _)).
  - intros P H. exact (conj (keeps_limit_producer _ _ _ H) (conj (keeps_map_final_producer _ _ _ _ H) (conj (keeps_map_error_producer _ _ _ _ H)
      (conj (keeps_invariant_producer _ _ _ H) (keeps_pscr _ _ _ _ _ H))))).
  - intros C H. exact (conj (keeps_limit_consumer _ _ _ H) (conj (keeps_map_final_consumer _ _ _ _ H) (conj (keeps_map_error_consumer _ _ _ _ H)
      (conj (keeps_invariant_consumer _ _ _ H) (keeps_cscr _ _ _ _ _ _ H))))).
  - intros H0 O A call ops s s' dropped HK Hs HA. exact (abiding_keeps _ _ _ _ _ _ H0 HK _ _ _ _ Hs HA).
Qed.
Print Assumptions C93_towers.

(** [Merge] abides by the rule for both of its producers even if its caller does not: it keeps their futures. *)
Theorem C93_merge :
  forall (S1 S2 T F E : Type) (P1 : a_producer S1 T F E) (P2 : a_producer S2 T F E) s1 s2 fuel acts m' out l,
  merge_session (watched_producer P1) (watched_producer P2) fuel acts AtStart
    (a_merge_new (watched_producer P1) (watched_producer P2) (s1, AtRest) (s2, AtRest)) = Ret (m', out, l) ->
  merge_ok snd snd m'.
Proof.
  intros S1 S2 T F E P1 P2 s1 s2 fuel acts m' out l H.
  assert (HM : merge_clean at_rest not_misused at_rest not_misused m').
  { refine (merge_session_clean at_rest not_misused at_rest not_misused (@rest_ok _) (@rest_ok _) (watched_producer P1) (watched_producer P2) (watch_keeps _ _ _) (watch_keeps _ _ _) _ _ _ _ _ _ _ _ H).
    split; cbn; intros o Ho; injection Ho as <-; (split; [discriminate|]); apply watch_keeps; reflexivity. }
  destruct HM as [H1 H2]. split; intros o Ho; [exact (proj1 (H1 o Ho))|exact (proj1 (H2 o Ho))].
Qed.
Print Assumptions C93_merge.

(** The shared encoders and decoders: the rule holds as long as nobody drops a future that has the lock. *)
Theorem C93_shared :
  forall (S V F E O RT : Type) (C : a_bulk_consumer S byte F E) (P : a_bulk_producer S byte F E) (re : RT -> a_encode_fn V) (rd : RT -> a_decode_fn V O) s0,
  (forall r, keeps_encode (re r)) -> (forall r, keeps_decode (rd r)) ->
  (forall tasks evs y, careful (a_shared_relative_encoder re (watched_bulk_consumer C)) (system_new (s0, AtRest) tasks) evs y ->
     snd (sy_shared y) <> Misused /\ (sy_holder y = None -> snd (sy_shared y) = AtRest)) /\
  (forall tasks evs y, careful (a_shared_relative_decoder rd (watched_bulk_producer P)) (system_new (s0, AtRest) tasks) evs y ->
     snd (sy_shared y) <> Misused /\ (sy_holder y = None -> snd (sy_shared y) = AtRest)).
Proof.
  intros S V F E O RT C P re rd s0 He Hd. split; intros tasks evs y H.
  - apply (shared_clean_careful at_rest not_misused (@rest_ok _) _ (shared_encoder_locked _ _ (@rest_ok _) _ _ He (watched_keeps_bulk_consumer _ _ _ _ C))) in H.
    + destruct H as (H1 & H2 & _). split; assumption.
    + apply shared_clean_new; [exact (@rest_ok _)|reflexivity].
  - apply (shared_clean_careful at_rest not_misused (@rest_ok _) _ (shared_decoder_locked _ _ (@rest_ok _) _ _ Hd (watched_keeps_bulk_producer _ _ _ _ P))) in H.
    + destruct H as (H1 & H2 & _). split; assumption.
    + apply shared_clean_new; [exact (@rest_ok _)|reflexivity].
Qed.
Print Assumptions C93_shared.
Theorem C93_shared_absolute :
  forall (S V F E O : Type) (C : a_bulk_consumer S byte F E) (P : a_bulk_producer S byte F E) (e : a_encode_fn V) (d : a_decode_fn V O) s0,
  keeps_encode e -> keeps_decode d ->
  (forall tasks evs y, careful (a_shared_encoder e (watched_bulk_consumer C)) (system_new (s0, AtRest) tasks) evs y ->
     snd (sy_shared y) <> Misused /\ (sy_holder y = None -> snd (sy_shared y) = AtRest)) /\
  (forall tasks evs y, careful (a_shared_decoder d (watched_bulk_producer P)) (system_new (s0, AtRest) tasks) evs y ->
     snd (sy_shared y) <> Misused /\ (sy_holder y = None -> snd (sy_shared y) = AtRest)).
Proof.
  intros S V F E O C P e d s0 He Hd. split; intros tasks evs y H.
  - apply (shared_clean_careful at_rest not_misused (@rest_ok _) _ (shared_encoder_locked_absolute _ _ (@rest_ok _) _ _ He (watched_keeps_bulk_consumer _ _ _ _ C))) in H.
    + destruct H as (H1 & H2 & _). split; assumption.
    + apply shared_clean_new; [exact (@rest_ok _)|reflexivity].
  - apply (shared_clean_careful at_rest not_misused (@rest_ok _) _ (shared_decoder_locked_absolute _ _ (@rest_ok _) _ _ Hd (watched_keeps_bulk_producer _ _ _ _ P))) in H.
    + destruct H as (H1 & H2 & _). split; assumption.
    + apply shared_clean_new; [exact (@rest_ok _)|reflexivity].
Qed.
Print Assumptions C93_shared_absolute.

(** ** Concrete cases *)

(** A producer and a consumer of bytes whose calls are all pending once. *)
Definition C93_later {X} (g : nat -> nat) (x : X) : fut nat X :=
  Fut (fun s => Ret (s, Pending true (sync (fun s => Ret (g s, x))))).
Definition C93_producer : a_bulk_producer nat byte unit unit :=
  a_bulk_producer_of (C93_later S (Ok (inl x07))) (C93_later S (Ok tt)) (C93_later S (Ok (inl [x07; x08]))) (fun n => C93_later (plus n) (Ok tt)).
Definition C93_consumer : a_bulk_consumer nat byte unit unit :=
  a_bulk_consumer_of (fun _ => C93_later S (Ok tt)) (fun _ => C93_later S (Ok tt)) (C93_later S (Ok tt)) (C93_later S (Ok 2)) (fun _ s => s)
    (fun n => C93_later (plus n) (Ok tt)).

(** The third call is given up after one poll; the object inside is in the middle of a call then. *)
Example C93_session_case :
  abiding (ap_future (a_limit_producer (watched_bulk_producer C93_producer))) [(PProduce, 2); (PSlurp, 5); (PExpose, 1); (PProduce, 2)] (mk_limit (0, AtRest) 9) =
  Ret (mk_limit (2, InCall) 8, true).
Proof. reflexivity. Qed.
Example C93_session_complete_case :
  abiding (ap_future (a_limit_producer (watched_bulk_producer C93_producer))) [(PProduce, 2); (PBulkProduce [x00], 9)] (mk_limit (0, AtRest) 9) =
  Ret (mk_limit (3, AtRest) 7, false).
Proof. reflexivity. Qed.

(** Misuse is noticed: a call after a future was dropped. *)
Example C93_misuse_case :
  (let* (s, _) := polls 1 (ap_produce (watched_bulk_producer C93_producer)) (0, AtRest) in
   let* (s, _) := polls 2 (ap_slurp (watched_bulk_producer C93_producer)) s in Ret s) = Ret (1, Misused).
Proof. reflexivity. Qed.

(** [Merge] with two such producers: the caller drops each of its futures, and in the end both producers have been called, but not
    misused. *)
Example C93_merge_case :
  exists m, merge_session (watched_producer C93_producer) (watched_producer C93_producer) 3 (repeat (mk_merge_act true false) 3) AtStart
    (a_merge_new (watched_producer C93_producer) (watched_producer C93_producer) (0, AtRest) (0, AtRest)) = Ret (m, [x07; x07], None) /\
  option_map (fun o => o_producer o) (a_future1 m) = Some (1, InCall) /\ option_map (fun o => o_producer o) (a_future2 m) = Some (1, AtRest).
Proof. eexists. split; [reflexivity|]. split; reflexivity. Qed.
Example C93_pipe_case :
  exists r, polls 4 (a_bulk_pipe 9 (watched_bulk_producer C93_producer) (watched_bulk_consumer C93_consumer)) ((0, AtRest), (0, AtRest)) =
  Ret (((1, InCall), (3, AtRest)), r).
Proof. eexists. reflexivity. Qed.

(** Two tasks that flush a shared encoder. *)
Definition C93_tasks : list (unit * list (ecall infallible (num (wrapped U8LE)) unit)) := [(tt, [EFlush]); (tt, [EFlush])].
Definition C93_shared_run (evs : list event) : outcome standing :=
  let* y := sys_run (a_shared_encoder (a_endian_encode U8LE) (watched_bulk_consumer C93_consumer)) evs (system_new (0, AtRest) C93_tasks) in
  Ret (snd (sy_shared y)).
Example C93_shared_case :
  exists y, careful (a_shared_encoder (a_endian_encode U8LE) (watched_bulk_consumer C93_consumer)) (system_new (0, AtRest) C93_tasks)
    [Poll 0; Poll 0; Poll 1; Poll 0; Poll 1] y /\ snd (sy_shared y) = InCall.
Proof.
  eexists. split; [repeat (eapply careful_step; [reflexivity|intros i Hi; discriminate Hi|]); apply careful_nil|reflexivity].
Qed.

(** Otherwise it does not: a future that has the lock is dropped, which releases it, and another task calls the shared consumer, although it itself
    has done nothing wrong. *)
Theorem C93_shared_refuted :
  exists evs, C93_shared_run (evs ++ [Drop 0]) = Ret InCall /\ C93_shared_run (evs ++ [Drop 0; Poll 1; Poll 1]) = Ret Misused.
Proof. exists [Poll 0; Poll 0; Poll 1; Poll 0]. split; reflexivity. Qed.
Print Assumptions C93_shared_refuted.

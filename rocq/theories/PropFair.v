(** Property C105: fair schedules of tasks that share an object behind a mutex. *)
From Coq Require Import Bool List Arith Lia.
From Coq.Init Require Import Byte.
From Verif Require Import Prelude ListFacts Traits Contracts ContractFacts BasicModel BasicSpec BasicProofs AdaptorSpec
  CodecModel CodecSpec CodecProofs CodecExamples SharedModel SharedSpec SharedProofs SharedExamples PropShared FairSpec FairProofs.
Import ListNotations.

(** If every task is polled infinitely often then at some time all tasks have made all their calls, unless a step
    fails to return. Calls may be dropped at any time, also while they have the lock. *)
Theorem C105_fair :
  forall (S X L K : Type) (sem : L -> K -> L * body S X) s0 (tasks : list (L * list K)) sched,
  fair (length tasks) sched ->
  exists n, (exists y, sys_run sem (before sched n) (system_new s0 tasks) = Ret y /\ all_done y) \/
    (forall y, sys_run sem (before sched n) (system_new s0 tasks) <> Ret y).
Proof.
  intros S X L K sem s0 tasks sched HF. apply (@fair_done _ _ _ _ sem (system_new s0 tasks) sched (@start_right _ _ _ _ sem s0 tasks)).
  cbn. now rewrite map_length.
Qed.
Print Assumptions C105_fair.

(** From then on nothing changes. *)
Theorem C105_stays_done :
  forall (S X L K : Type) (sem : L -> K -> L * body S X) y evs, all_done y -> sys_run sem evs y = Ret y.
Proof. intros S X L K sem y evs HD. exact (@done_runs _ _ _ _ sem evs y HD). Qed.
Print Assumptions C105_stays_done.

(** How long it takes: in a round, every task is polled at least once. If no call needs more than [b] steps with the
    lock then [b + 3] rounds for each call are enough. *)
Theorem C105_rounds :
  forall (S X L K : Type) (sem : L -> K -> L * body S X) s0 (tasks : list (L * list K)) b r evs y,
  (forall l c p, snd (sem l c) = Locked p -> short b p) ->
  all_calls tasks * (b + 3) <= r -> in_rounds (length tasks) r evs ->
  sys_run sem evs (system_new s0 tasks) = Ret y -> all_done y.
Proof.
  intros S X L K sem s0 tasks b r evs y HB Hr HI H.
  apply (@rounds_done _ _ _ _ sem b) with (y0 := system_new s0 tasks) (k := length tasks) (r := r) (evs := evs)
    (ws := map (fun lcs => length (snd lcs) * (b + 3)) tasks); auto.
  - intros l c. specialize (HB l c). destruct (snd (sem l c)); auto.
  - exact (@start_right _ _ _ _ sem s0 tasks).
  - cbn. now rewrite map_length.
  - apply start_costs.
  - now rewrite sum_calls.
Qed.
Print Assumptions C105_rounds.

(** Encoders that share a vector: if every task is polled infinitely often then in the end the vector has the encodings of all values
    of all tasks, each completely and once, those of a task in its order. *)
Theorem C105_encoders :
  forall (V : Type) (encode : encode_fn V) enc encp flushp (tasks : list (unit * list (ecall infallible V unit))) sched,
  lawful_encode encode enc ->
  (forall v, implements (encp v) (fun s => encode _ _ _ (into_vec_consumer x00) v s)) ->
  implements flushp (fun s => c_flush (into_vec_consumer x00) s) ->
  fair (length tasks) (fun n => Poll (sched n)) ->
  exists n y order,
    sys_run (shared_encoder encp flushp) (before (fun n => Poll (sched n)) n) (system_new into_vec_new tasks) = Ret y /\ all_done y /\
    into_vec_into_vec (sy_shared y) = concat (map enc (map snd order)) /\
    Forall (fun e => fst e < length tasks) order /\
    forall i u cs, nth_error tasks i = Some (u, cs) -> of_task i order = consumed_values cs.
Proof. intros V encode enc encp flushp tasks sched. exact (@fair_encoders V encode enc encp flushp tasks sched). Qed.
Print Assumptions C105_encoders.

(** Decoders that share a producer of encodings, task [i] asking for [k_i] values: in the end every task has as many as it asked for, together they
    have all of them, each once, those of a task in the order of the encodings; the producer is right behind them. *)
Theorem C105_decoders :
  forall (S V F E O : Type) (decode : decode_fn V O) dec enc (P : bulk_producer S byte F E) R D exposep decp slurpp
    s0 vs more l k ks sched,
  lawful_decode decode dec -> reads_no_further dec -> round_trips enc dec -> (forall v, enc v <> []) -> lawful_producer P R D ->
  implements exposep (fun s => p_expose P s) -> implements decp (fun s => decode _ _ _ P s) ->
  R s0 (concat (map enc vs) ++ more) l k -> list_sum ks = length vs ->
  fair (length ks) (fun n => Poll (sched n)) ->
  exists n y order k',
    sys_run (shared_decoder exposep decp slurpp) (before (fun n => Poll (sched n)) n)
      (system_new s0 (map (fun k => (tt, repeat DProduce k)) ks)) = Ret y /\ all_done y /\
    map snd order = vs /\ R (sy_shared y) more l k' /\
    forall i n, nth_error ks i = Some n -> exists t, nth_error (sy_tasks y) i = Some t /\
      received t = of_task i order /\ length (received t) = n.
Proof.
  intros S V F E O decode dec enc P R D exposep decp slurpp s0 vs more l k ks sched LD RF RT NE LP IX ID HR Hsum HF.
  destruct (@fair_decoders S _ unit (dcall infallible) V F E O (shared_decoder exposep decp slurpp) tt DProduce (shared_produce exposep decp)
    decode dec enc P R D BPItem eq_refl (fun s => shared_produce_alone (fun _ : unit => decode) P (fun _ => decp) IX (fun _ => ID) tt s)
    LD LP RT RF NE ks vs more s0 l k HR ltac:(lia) sched
    (fun x => match x with BPItem (Ok (inl v)) => [v] | _ => [] end) (fun v => eq_refl) Hsum HF) as (n & y & order & k' & H1 & H2 & H3 & H4 & H5).
  exists n, y, order, k'. splits; auto. intros i m Hm. destruct (H5 i m Hm) as (t & T1 & T2 & T3). exists t. split; [exact T1|].
  assert (EQ : received t = of_task i order).
  { rewrite <- T2. unfold received. apply flat_map_ext. intros [lc [[[[v|f]|e]|u]|]]; reflexivity. }
  split; [exact EQ|]. now rewrite EQ.
Qed.
Print Assumptions C105_decoders.

(** The same with a reference value. *)
Theorem C105_relative_decoders :
  forall (S V F E O RT : Type) (decode : RT -> decode_fn V O) r dec enc (P : bulk_producer S byte F E) R D exposep decp slurpp
    s0 vs more l k ks sched,
  lawful_decode (decode r) dec -> reads_no_further dec -> round_trips enc dec -> (forall v, enc v <> []) -> lawful_producer P R D ->
  implements exposep (fun s => p_expose P s) -> (forall r, implements (decp r) (fun s => decode r _ _ _ P s)) ->
  R s0 (concat (map enc vs) ++ more) l k -> list_sum ks = length vs ->
  fair (length ks) (fun n => Poll (sched n)) ->
  exists n y order k',
    sys_run (shared_relative_decoder exposep decp slurpp) (before (fun n => Poll (sched n)) n)
      (system_new s0 (map (fun k => (r, repeat DProduce k)) ks)) = Ret y /\ all_done y /\
    map snd order = vs /\ R (sy_shared y) more l k' /\
    forall i n, nth_error ks i = Some n -> exists t, nth_error (sy_tasks y) i = Some t /\
      received t = of_task i order /\ length (received t) = n.
Proof.
  intros S V F E O RT decode r dec enc P R D exposep decp slurpp s0 vs more l k ks sched LD RF RO NE LP IX ID HR Hsum HF.
  destruct (@fair_decoders S _ RT (dcall RT) V F E O (shared_relative_decoder exposep decp slurpp) r DProduce (shared_produce exposep (decp r))
    (decode r) dec enc P R D BPItem eq_refl (fun s => shared_produce_alone decode P decp IX ID r s)
    LD LP RO RF NE ks vs more s0 l k HR ltac:(lia) sched
    (fun x => match x with BPItem (Ok (inl v)) => [v] | _ => [] end) (fun v => eq_refl) Hsum HF) as (n & y & order & k' & H1 & H2 & H3 & H4 & H5).
  exists n, y, order, k'. splits; auto. intros i m Hm. destruct (H5 i m Hm) as (t & T1 & T2 & T3). exists t. split; [exact T1|].
  assert (EQ : received t = of_task i order).
  { rewrite <- T2. unfold received. apply flat_map_ext. intros [lc [[[[v|f]|e]|u]|]]; reflexivity. }
  split; [exact EQ|]. now rewrite EQ.
Qed.
Print Assumptions C105_relative_decoders.

(** It is not enough to poll one task: if a call has the lock and nobody polls it any more then a call of another task waits forever, although
    it is polled again and again. *)
Definition stuck_tasks : list (unit * list (ecall infallible (option byte) unit)) := [(tt, [EConsume (Some x07)]); (tt, [EConsume None])].
Theorem C105_one_task_refuted :
  exists sched, (forall n, exists m, n <= m /\ sched m = Poll 1) /\
    forall n, exists y, sys_run (shared_encoder ex_vecp ex_flushp) (before sched n) (system_new into_vec_new stuck_tasks) = Ret y /\
      ~ all_done y /\ (exists t, nth_error (sy_tasks y) 1 = Some t /\ tk_log t = []) /\ into_vec_into_vec (sy_shared y) = [].
Proof.
  exists (fun n => if n <? 2 then Poll 0 else Poll 1). split.
  { intros n. exists (n + 2). split; [lia|]. destruct (Nat.ltb_spec (n + 2) 2); [lia|reflexivity]. }
  assert (HD : forall y : system (into_vec byte) (res unit infallible) unit (ecall infallible (option byte) unit),
    (exists t, nth_error (sy_tasks y) 0 = Some t /\ ~ (tk_now t = Idle /\ tk_calls t = [])) -> ~ all_done y).
  { intros y (t & Ht & HN) HA. unfold all_done in HA. rewrite Forall_forall in HA. exact (HN (HA t (nth_error_In _ _ Ht))). }
  intros [|[|[|n]]].
  1-3: eexists; (split; [reflexivity|]); (split; [apply HD; eexists; (split; [reflexivity|]); cbn; intros [H1 H2]; discriminate|]);
    (split; [eexists; split; reflexivity|reflexivity]).
  match goal with |- exists y, sys_run ?sem (before ?sched _) ?y0 = _ /\ _ => pose (sem' := sem); pose (sched' := sched); pose (y0' := y0) end.
  assert (E3 : exists y3, sys_run sem' (before sched' 3) y0' = Ret y3 /\ sys_step sem' (Poll 1) y3 = Ret y3 /\
    ~ all_done y3 /\ (exists t, nth_error (sy_tasks y3) 1 = Some t /\ tk_log t = []) /\ into_vec_into_vec (sy_shared y3) = []).
  { eexists. split; [reflexivity|]. split; [reflexivity|]. split; [apply HD; eexists; (split; [reflexivity|]); cbn; intros [H1 H2]; discriminate|].
    split; [eexists; split; reflexivity|reflexivity]. }
  destruct E3 as (y3 & E3 & ES & HN). exists y3. split; [|exact HN].
  change (sys_run sem' (before sched' (3 + n)) y0' = Ret y3). induction n as [|n IH]; [exact E3|].
  replace (3 + S n) with (S (3 + n)) by lia. rewrite before_succ, sys_run_app, IH. cbn [bind sys_run].
  replace (sched' (3 + n)) with (Poll 1) by (unfold sched'; destruct (Nat.ltb_spec (3 + n) 2); [lia|reflexivity]). now rewrite ES.
Qed.
Print Assumptions C105_one_task_refuted.

(** Two tasks take turns. *)
Definition turns (n : nat) : nat := n mod 2.
Lemma turns_fair : fair 2 (fun n => Poll (turns n)).
Proof.
  intros i n Hi. exists (2 * n + i). split; [lia|]. unfold turns. f_equal. rewrite Nat.mul_comm, Nat.add_comm, Nat.mod_add by lia. now apply Nat.mod_small.
Qed.

Definition turn_tasks : list (unit * list (ecall infallible (option byte) unit)) :=
  [(tt, [EConsume (Some x07); EConsume None]); (tt, [EConsume (Some x08); EFlush])].
Example C105_encoders_example :
  lawful_encode (bytewise_encode opt_enc) opt_enc /\
  (forall v, implements (ex_vecp v) (fun s => bytewise_encode opt_enc (into_vec_consumer x00) v s)) /\
  implements ex_flushp (fun s => c_flush (into_vec_consumer x00) s) /\
  fair (length turn_tasks) (fun n => Poll (turns n)) /\
  exists y, sys_run (shared_encoder ex_vecp ex_flushp) (before (fun n => Poll (turns n)) 40) (system_new into_vec_new turn_tasks) = Ret y /\ all_done y /\
    into_vec_into_vec (sy_shared y) = [x01; x07; x01; x08; x00].
Proof.
  refine (conj _ (conj _ (conj _ (conj _ _)))).
  - apply bytewise_lawful.
  - intros v. apply consume_each_implements.
  - apply call_implements.
  - exact turns_fair.
  - eexists. split; [vm_compute; reflexivity|]. split; [repeat constructor|reflexivity].
Qed.

Example C105_decoders_example :
  lawful_decode opt_decode opt_dec /\ reads_no_further opt_dec /\ round_trips opt_enc opt_dec /\ (forall v, opt_enc v <> []) /\
  lawful_producer (@test_producer byte nat nat) tp_rel tp_end /\
  implements ex_exposep (fun s => p_expose test_producer s) /\ implements ex_decp (fun s => opt_decode test_producer s) /\
  tp_rel ex_bytes (concat (map opt_enc [Some x07; None; Some x08]) ++ []) (Ok 5) 0 /\ list_sum [1; 2] = length [Some x07; None; Some x08] /\
  fair (length [1; 2]) (fun n => Poll (turns n)) /\
  exists y, sys_run (shared_decoder ex_exposep ex_decp ex_slurpp) (before (fun n => Poll (turns n)) 40)
      (system_new ex_bytes (map (fun k => (tt, repeat DProduce k)) [1; 2])) = Ret y /\ all_done y /\
    map received (sy_tasks y) = [[Some x07]; [None; Some x08]].
Proof.
  refine (conj _ (conj _ (conj _ (conj _ (conj _ (conj _ (conj _ (conj _ (conj _ (conj _ _)))))))))).
  - exact opt_lawful_decode.
  - exact opt_reads.
  - exact (codec_round_trips opt_codec).
  - exact opt_nonempty.
  - apply test_producer_lawful.
  - apply call_implements.
  - apply opt_decode_implements.
  - apply tp_rel_build; repeat constructor.
  - reflexivity.
  - exact turns_fair.
  - eexists. split; [vm_compute; reflexivity|]. split; [repeat constructor|reflexivity].
Qed.

(** Programs that write at most two bytes have at most two steps, so a call of one task needs at most five rounds, and it needs five if it writes two. A drop in between does no harm. *)
Lemma vec_short : forall l (c : ecall infallible (option byte) unit) p, snd (shared_encoder ex_vecp ex_flushp l c) = Locked p -> short 2 p.
Proof.
  intros l c p H.
  assert (HE : forall (x : byte) (k : res unit infallible -> prog (into_vec byte) (res unit infallible)) d, (forall r, short d (k r)) ->
    short (S d) (prog_bind (prog_call (c_consume (into_vec_consumer x00) x)) k)).
  { intros x k d Hk. cbn [prog_bind prog_call]. constructor. intros s s' q E.
    destruct (c_consume (into_vec_consumer x00) x s) as [[s1 r]| |]; cbn in E; try discriminate. injection E as <- <-. apply Hk. }
  destruct c as [v|f| |[]]; cbn in H; try discriminate; injection H as <-.
  - destruct v as [b|]; [apply (HE x01); intros [u|[]]; apply (HE b); intros [u'|[]]; constructor|apply (HE x00); intros [u|[]]; constructor].
  - constructor. intros s s' q E. cbn in E. injection E as <- <-. constructor.
Qed.

Definition one_call : list (unit * list (ecall infallible (option byte) unit)) := [(tt, [EConsume (Some x07)])].
Example C105_rounds_example :
  (forall l c p, snd (shared_encoder (F := unit) ex_vecp ex_flushp l c) = Locked p -> short 2 p) /\
  all_calls one_call * (2 + 3) <= 5 /\ in_rounds (length one_call) 5 (repeat (Poll 0) 5) /\
  (exists y, sys_run (shared_encoder ex_vecp ex_flushp) (repeat (Poll 0) 5) (system_new into_vec_new one_call) = Ret y /\ all_done y) /\
  (exists y, sys_run (shared_encoder ex_vecp ex_flushp) (repeat (Poll 0) 4) (system_new into_vec_new one_call) = Ret y /\ ~ all_done y) /\
  all_calls turn_tasks * (2 + 3) <= 20 /\ in_rounds (length turn_tasks) 20 (concat (repeat [Poll 1; Drop 0; Poll 0] 20)) /\
  exists y, sys_run (shared_encoder ex_vecp ex_flushp) (concat (repeat [Poll 1; Drop 0; Poll 0] 20)) (system_new into_vec_new turn_tasks) = Ret y /\
    into_vec_into_vec (sy_shared y) = [x01; x08].
Proof.
  refine (conj vec_short (conj _ (conj _ (conj _ (conj _ (conj _ (conj _ _))))))).
  - cbn. lia.
  - exists (repeat [Poll 0] 5). split; [reflexivity|]. split; [reflexivity|]. apply Forall_forall. intros seg Hs. apply repeat_spec in Hs. subst seg.
    intros [|i] Hi; cbn in *; auto; lia.
  - eexists. split; [reflexivity|]. repeat constructor.
  - eexists. split; [reflexivity|]. intros H. inversion H as [|? ? [H1 _] _]. discriminate.
  - cbn. lia.
  - exists (repeat [Poll 1; Drop 0; Poll 0] 20). split; [reflexivity|]. split; [reflexivity|]. apply Forall_forall. intros seg Hs. apply repeat_spec in Hs. subst seg.
    intros [|[|i]] Hi; cbn in *; auto; lia.
  - eexists. split; [vm_compute; reflexivity|]. reflexivity.
Qed.

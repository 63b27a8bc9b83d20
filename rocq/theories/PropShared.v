(** Properties C51, C52, C57, C58: producers and consumers shared behind a mutex. *)
From Coq Require Import Bool List Arith Lia.
From Coq.Init Require Import Byte.
From Verif Require Import Prelude ListFacts Traits Contracts ContractFacts BasicModel BasicSpec BasicProofs AdaptorSpec
  CodecModel CodecSpec CodecProofs CodecExamples SharedModel SharedSpec SharedProofs
  SharedExamples.
Import ListNotations.

(** *** C51, C52: in general. [sem] is any adaptor that keeps its object behind the mutex, [tasks] are any users of it, with their calls.
    In every execution in which nobody drops a future that has the lock, the object and all results are what
    they would be if the calls were made one after the other, in the order in which the lock was acquired. *)
Theorem C51_lock_order :
  forall (S X L K : Type) (sem : L -> K -> L * body S X) s0 (tasks : list (L * list K)) evs y,
  careful sem (system_new s0 tasks) evs y ->
  in_turn (map (fun e => call_alone sem (fst (snd e))) (sy_hist y)) s0 =
    (map (fun e => snd (snd e)) (sy_hist y), Ret (sy_base y)) /\
  match sy_holder y with
  | None => sy_shared y = sy_base y
  | Some i => exists t l c p, nth_error (sy_tasks y) i = Some t /\ tk_now t = Running l c p /\
      (* the rest of what it is doing *)
      run_prog p (sy_shared y) = call_alone sem (l, c) (sy_base y)
  end.
Proof.
  intros S X L K sem s0 tasks evs y H. destruct (careful_ok H (sys_ok_new sem s0 tasks)) as (H1 & H2 & _).
  split; [exact H1|]. unfold lock_ok in H2. destruct (sy_holder y); apply H2.
Qed.
Print Assumptions C51_lock_order.

(** Every task makes its calls in order; the calls of the history are those of the tasks. *)
Theorem C51_task_order :
  forall (S X L K : Type) (sem : L -> K -> L * body S X) s0 (tasks : list (L * list K)) evs y i t,
  careful sem (system_new s0 tasks) evs y -> nth_error (sy_tasks y) i = Some t ->
  exists l cs, nth_error tasks i = Some (l, cs) /\
    with_locals sem l cs = map fst (tk_log t) ++ pending t ++ with_locals sem (tk_local t) (tk_calls t) /\
    of_task i (sy_hist y) = locked_calls sem (tk_log t).
Proof.
  intros S X L K sem s0 tasks evs y i t H Hi. destruct (careful_ok H (sys_ok_new sem s0 tasks)) as (_ & _ & _ & HT).
  destruct (HT _ _ Hi) as ([l cs] & E1 & E2 & E3 & _). exists l, cs. auto.
Qed.
Print Assumptions C51_task_order.

(** In any execution at all, also if a call is dropped that has the lock: the lock is held exactly while one task is in
    its critical section, there is at most one such task; every task makes its calls in order, and each of them has
    one entry in its log (a dropped one without a result); the history has those that completed. *)
Theorem C51_any_execution :
  forall (S X L K : Type) (sem : L -> K -> L * body S X) s0 (tasks : list (L * list K)) evs y,
  sys_run sem evs (system_new s0 tasks) = Ret y ->
  (forall i, sy_holder y = Some i <-> exists t l c p, nth_error (sy_tasks y) i = Some t /\ tk_now t = Running l c p) /\
  length (sy_tasks y) = length tasks /\
  forall i t, nth_error (sy_tasks y) i = Some t ->
  exists l cs, nth_error tasks i = Some (l, cs) /\
    with_locals sem l cs = map fst (tk_log t) ++ pending t ++ with_locals sem (tk_local t) (tk_calls t) /\
    of_task i (sy_hist y) = locked_calls sem (tk_log t).
Proof.
  intros S X L K sem s0 tasks evs y H.
  destruct (@sys_run_any _ _ _ _ sem tasks evs _ _ (any_ok_new sem s0 tasks) H) as (H1 & H2 & H3). splits; auto.
  - intros i. rewrite H1. unfold running. split.
    + intros (t & Hi & Hr). destruct (tk_now t) as [| |l c p] eqn:E; try contradiction. eauto 6.
    + intros (t & l & c & p & Hi & E). exists t. rewrite E. auto.
  - intros i t Hi. destruct (H3 _ _ Hi) as ([l cs] & E1 & E2 & E3 & _). exists l, cs. auto.
Qed.
Print Assumptions C51_any_execution.

(** Dropping the call of a task (if it is in one) frees the lock if it had it; the object stays as the call left it. *)
Theorem C51_drop :
  forall (S X L K : Type) (sem : L -> K -> L * body S X) (y : system S X L K) i t, nth_error (sy_tasks y) i = Some t ->
  exists y', sys_step sem (Drop i) y = Ret y' /\ sy_shared y' = sy_shared y /\ sy_hist y' = sy_hist y /\ sy_base y' = sy_base y /\
    sy_holder y' = match tk_now t with Running _ _ _ => None | _ => sy_holder y end /\
    (forall j, j <> i -> nth_error (sy_tasks y') j = nth_error (sy_tasks y) j) /\
    nth_error (sy_tasks y') i =
      Some (mk_task (tk_local t) (tk_calls t) Idle (tk_log t ++ map (fun lc => (lc, None)) (pending t))).
Proof. intros S X L K sem y i t. exact (@sys_drop _ _ _ _ sem y i t). Qed.
Print Assumptions C51_drop.

(** No deadlock: from any point of an execution, all tasks can complete, unless a call fails to return. *)
Theorem C51_no_deadlock :
  forall (S X L K : Type) (sem : L -> K -> L * body S X) s0 (tasks : list (L * list K)) evs y,
  careful sem (system_new s0 tasks) evs y ->
  exists evs', Forall is_poll evs' /\
    ((exists y', sys_run sem evs' y = Ret y' /\ all_done y') \/ (forall y', sys_run sem evs' y <> Ret y')).
Proof.
  intros S X L K sem s0 tasks evs y H.
  destruct (can_finish (Nat.le_refl _) (careful_ok H (sys_ok_new sem s0 tasks))) as (evs' & HF & HH).
  exists evs'. split; [exact HF|]. destruct HH; auto.
Qed.
Print Assumptions C51_no_deadlock.

(** *** C51. [encp] and [flushp] are [relative_encode] and [flush], interrupted anywhere. As long as there has been no
    error, the consumer has received the encodings (and flushes) of the history, each completely, one after the
    other; whoever has the lock is about to bring the consumer from there to where the encoding is complete. *)
Theorem C51_encodings :
  forall (S A V F E RT : Type) (encode : RT -> encode_fn V) enc (C : bulk_consumer S byte F E) (M : machine A byte F E) R D
    encp flushp s0 a k w tasks evs y,
  (forall r, lawful_encode (encode r) (enc r)) -> lawful_consumer C M R D ->
  (forall r v, implements (encp r v) (fun s => encode r _ _ _ C v s)) -> implements flushp (fun s => c_flush C s) ->
  R s0 a k w ->
  careful (shared_relative_encoder encp flushp) (system_new s0 tasks) evs y ->
  Forall (fun e => snd (snd e) = Ok tt) (sy_hist y) ->
  exists a' k' w', feed_calls M enc (map (fun e => fst (snd e)) (sy_hist y)) a = (a', None) /\ R (sy_base y) a' k' w' /\
  match sy_holder y with
  | None => sy_shared y = sy_base y
  | Some i => exists t r c p, nth_error (sy_tasks y) i = Some t /\ tk_now t = Running r c p /\
      match feed_calls M enc [(r, c)] a' with
      | (a'', None) => exists s' k'' w'', run_prog p (sy_shared y) = Ret (s', Ok tt) /\ R s' a'' k'' w''
      | (a'', Some e) => exists s', run_prog p (sy_shared y) = Ret (s', Err e) /\ D s' a''
      end
  end.
Proof.
  intros S A V F E RT encode enc C M R D encp flushp s0 a k w tasks evs y LE LC IE IF HR H HF.
  destruct (C51_lock_order _ _ _ _ _ _ _ _ _ H) as [H1 H2]. rewrite <- map_map in H1.
  destruct (encoder_in_turn encode enc encp LE LC IE IF _ _ _ _ _ HR H1) as (a' & k' & w' & E1 & HR').
  { apply Forall_forall. intros x Hx. apply in_map_iff in Hx as (e & <- & He). rewrite Forall_forall in HF. auto. }
  exists a', k', w'. splits; auto. destruct (sy_holder y) as [i|]; [|exact H2].
  destruct H2 as (t & r & c & p & E2 & E3 & E4). exists t, r, c, p. splits; auto. rewrite E4.
  exact (encoder_call_ok encode enc encp LE LC IE IF (r, c) _ _ _ _ HR').
Qed.
Print Assumptions C51_encodings.

(** The first error in the history is the one that the encodings up to there raise. *)
Theorem C51_first_error :
  forall (S A V F E RT : Type) (encode : RT -> encode_fn V) enc (C : bulk_consumer S byte F E) (M : machine A byte F E) R D
    encp flushp s0 a k w tasks evs y h1 i rc e h2,
  (forall r, lawful_encode (encode r) (enc r)) -> lawful_consumer C M R D ->
  (forall r v, implements (encp r v) (fun s => encode r _ _ _ C v s)) -> implements flushp (fun s => c_flush C s) ->
  R s0 a k w ->
  careful (shared_relative_encoder encp flushp) (system_new s0 tasks) evs y ->
  sy_hist y = h1 ++ (i, (rc, Err e)) :: h2 -> Forall (fun e => snd (snd e) = Ok tt) h1 ->
  exists a', feed_calls M enc (map (fun e => fst (snd e)) h1 ++ [rc]) a = (a', Some e).
Proof.
  intros S A V F E RT encode enc C M R D encp flushp s0 a k w tasks evs y h1 i rc e h2 LE LC IE IF HR H Hh HF.
  destruct (C51_lock_order _ _ _ _ _ _ _ _ _ H) as [H1 _]. rewrite Hh in H1. rewrite !map_app in H1. cbn [map snd fst] in H1.
  destruct (in_turn_split _ _ _ _ _ _ _ H1) as (s2 & s3 & E1 & E2); [now rewrite !map_length|].
  rewrite <- map_map in E1.
  destruct (encoder_in_turn encode enc encp LE LC IE IF _ _ _ _ _ HR E1) as (a1 & k1 & w1 & E3 & HR1).
  { apply Forall_forall. intros x Hx. apply in_map_iff in Hx as (e' & <- & He). rewrite Forall_forall in HF. auto. }
  rewrite feed_calls_app, E3.
  pose proof (encoder_call_ok encode enc encp LE LC IE IF rc _ _ _ _ HR1) as HC.
  destruct (feed_calls M enc [rc] a1) as [a2 [e2|]].
  - destruct HC as (s' & E4 & _). rewrite E4 in E2. injection E2 as _ <-. eauto.
  - destruct HC as (s' & k2 & w2 & E4 & _). rewrite E4 in E2. discriminate.
Qed.
Print Assumptions C51_first_error.

(** As long as there has been no error, every step of every task succeeds. *)
Theorem C51_no_panic :
  forall (S A V F E RT : Type) (encode : RT -> encode_fn V) enc (C : bulk_consumer S byte F E) (M : machine A byte F E) R D
    encp flushp s0 a k w tasks evs y ev,
  (forall r, lawful_encode (encode r) (enc r)) -> lawful_consumer C M R D ->
  (forall r v, implements (encp r v) (fun s => encode r _ _ _ C v s)) -> implements flushp (fun s => c_flush C s) ->
  R s0 a k w ->
  careful (shared_relative_encoder (F := F) encp flushp) (system_new s0 tasks) evs y ->
  Forall (fun e => snd (snd e) = Ok tt) (sy_hist y) ->
  exists y', sys_step (shared_relative_encoder (F := F) encp flushp) ev y = Ret y'.
Proof.
  intros S A V F E RT encode enc C M R D encp flushp s0 a k w tasks evs y ev LE LC IE IF HR H HF.
  destruct (C51_encodings _ _ _ _ _ _ _ _ _ _ _ _ _ _ _ _ _ _ _ _ _ LE LC IE IF HR H HF) as (a' & k' & w' & _ & HR' & _).
  destruct (sys_step (shared_relative_encoder (F := F) encp flushp) ev y) as [y'| |] eqn:E1; [eauto| |]; exfalso;
    (destruct (@sys_step_fails _ _ _ _ _ s0 tasks y ev (careful_ok H (sys_ok_new _ s0 tasks))) as (i & t & r & c & p & _ & _ & _ & E2);
     [rewrite E1; discriminate|];
     pose proof (encoder_call_ok encode enc encp LE LC IE IF (r, c) _ _ _ _ HR') as HC;
     destruct (feed_calls M enc [(r, c)] a') as [a2 [e2|]];
     [destruct HC as (s' & E4 & _); exact (E2 _ _ E4)|destruct HC as (s' & k2 & w2 & E4 & _); exact (E2 _ _ E4)]).
Qed.
Print Assumptions C51_no_panic.

(** Closing has no effect. *)
Theorem C51_close_no_effect :
  forall (S V F E RT : Type) (encp : RT -> V -> prog S (res unit E)) flushp (y : system S (res unit E) RT (ecall RT V F)) i t f cs,
  nth_error (sy_tasks y) i = Some t -> tk_now t = Idle -> tk_calls t = EClose f :: cs ->
  exists y', sys_step (shared_relative_encoder encp flushp) (Poll i) y = Ret y' /\
    sy_shared y' = sy_shared y /\ sy_holder y' = sy_holder y /\ sy_hist y' = sy_hist y /\
    exists t', nth_error (sy_tasks y') i = Some t' /\ tk_log t' = tk_log t ++ [(tk_local t, EClose f, Some (Ok tt))] /\
      tk_calls t' = cs /\ tk_local t' = tk_local t.
Proof.
  intros S V F E RT encp flushp y i t f cs Hi Hn Hc. cbn [sys_step]. rewrite Hi, Hn, Hc. cbn.
  eexists. splits; [reflexivity|reflexivity|reflexivity|reflexivity|].
  eexists. splits; [cbn; rewrite (@nth_error_update _ _ _ _ _ _ Hi), Nat.eqb_refl; reflexivity|reflexivity|reflexivity|reflexivity].
Qed.
Print Assumptions C51_close_no_effect.

(** The variant without reference value, over a vector: whenever nobody has the lock, the vector contains complete
    encodings, in the order of the history. *)
Theorem C51_bytes :
  forall (V : Type) (encode : encode_fn V) enc encp flushp (tasks : list (unit * list (ecall infallible V unit))) evs y,
  lawful_encode encode enc ->
  (forall v, implements (encp v) (fun s => encode _ _ _ (into_vec_consumer x00) v s)) ->
  implements flushp (fun s => c_flush (into_vec_consumer x00) s) ->
  careful (shared_encoder encp flushp) (system_new into_vec_new tasks) evs y ->
  sy_holder y = None ->
  into_vec_into_vec (sy_shared y) =
    concat (map (fun e => match snd (fst (snd e)) with EConsume v => enc v | _ => [] end) (sy_hist y)).
Proof.
  intros V encode enc encp flushp tasks evs y L IE IF H Hh.
  destruct (shared_into_vec L IE IF H) as (w & k & u & -> & HR).
  destruct (C51_lock_order _ _ _ _ _ _ _ _ _ H) as [_ H2]. rewrite Hh in H2. rewrite H2.
  now apply iv_rel_read in HR as [_ ->].
Qed.
Print Assumptions C51_bytes.

(** There, nothing can fail, and the tasks can always complete. *)
Theorem C51_completes :
  forall (V : Type) (encode : encode_fn V) enc encp flushp (tasks : list (unit * list (ecall infallible V unit))) evs y,
  lawful_encode encode enc ->
  (forall v, implements (encp v) (fun s => encode _ _ _ (into_vec_consumer x00) v s)) ->
  implements flushp (fun s => c_flush (into_vec_consumer x00) s) ->
  careful (shared_encoder encp flushp) (system_new into_vec_new tasks) evs y ->
  (forall ev, exists y', sys_step (shared_encoder encp flushp) ev y = Ret y') /\
  exists evs' y', Forall is_poll evs' /\ sys_run (shared_encoder encp flushp) evs' y = Ret y' /\ all_done y'.
Proof.
  intros V encode enc encp flushp tasks evs y L IE IF H.
  assert (HS : forall evs y ev, careful (shared_encoder encp flushp) (system_new into_vec_new tasks) evs y ->
    exists y', sys_step (shared_encoder encp flushp) ev y = Ret y').
  { clear evs y H. intros evs y ev H. exact (shared_into_vec_step L IE IF ev H). }
  split; [intros ev; eauto|].
  destruct (C51_no_deadlock _ _ _ _ _ _ _ _ _ H) as (evs' & HF & [(y' & E1 & HA)|HN]); [eauto|].
  destruct (polls_succeed HS H HF) as [y' E1]. destruct (HN _ E1).
Qed.
Print Assumptions C51_completes.

(** Two tasks; the first makes two calls with different reference values. The second task becomes active in the middle of the first
    encoding and has to wait. *)
Definition ex_encp (r v : byte) : prog (into_vec byte) (res unit infallible) := consume_each_prog (into_vec_consumer x00) (diff_enc r v).
Definition ex_flushp : prog (into_vec byte) (res unit infallible) := prog_call (fun s => c_flush (into_vec_consumer x00) s).
Definition ex_tasks : list (byte * list (ecall byte byte unit)) :=
  [(x07, [EConsume x08; ESetRelativeTo x09; EConsume x09; EClose tt]); (x07, [EConsume x05; EFlush])].
Definition ex_schedule : list event :=
  [Poll 0; Poll 0; Poll 0; Poll 1; Poll 1; Poll 1; Poll 0; Poll 1; Poll 0; Poll 1; Poll 0; Poll 0; Poll 1; Poll 0;
   Poll 1; Poll 1; Poll 0; Poll 0; Poll 0; Poll 1; Poll 1; Poll 1; Poll 1; Poll 0; Poll 1; Poll 0].

Example C51_example :
  (exists y, careful (shared_relative_encoder ex_encp ex_flushp) (system_new into_vec_new ex_tasks) ex_schedule y /\
     sy_holder y = None /\ all_done y /\
     map (fun e => (fst e, fst (snd e))) (sy_hist y) =
       [(0, (x07, EConsume x08)); (1, (x07, EConsume x05)); (0, (x09, EConsume x09)); (1, (x07, EFlush))] /\
     Forall (fun e => snd (snd e) = Ok tt) (sy_hist y) /\
     into_vec_into_vec (sy_shared y) = [x01; x08; x01; x05; x00]) /\
  (* in the middle of an encoding *)
  (exists y, careful (shared_relative_encoder ex_encp ex_flushp) (system_new into_vec_new ex_tasks) (firstn 6 ex_schedule) y /\
     sy_holder y = Some 0 /\ into_vec_into_vec (sy_shared y) = [x01]) /\
  (forall r, lawful_encode (bytewise_encode (diff_enc r)) (diff_enc r)) /\
  lawful_consumer (into_vec_consumer x00) (collect_machine byte unit infallible) iv_rel (iv_end (T := byte)) /\
  (forall r v, implements (ex_encp r v) (fun s => bytewise_encode (diff_enc r) (into_vec_consumer x00) v s)) /\
  implements ex_flushp (fun s => c_flush (into_vec_consumer x00) s) /\
  @iv_rel byte into_vec_new [] 0 [].
Proof.
  splits.
  - eexists. splits.
    + apply polls_careful; [repeat constructor|]. vm_compute. reflexivity.
    + reflexivity.
    + repeat constructor.
    + reflexivity.
    + repeat constructor.
    + reflexivity.
  - eexists. splits.
    + apply polls_careful; [repeat constructor|]. cbn. reflexivity.
    + reflexivity.
    + reflexivity.
  - intros r. apply bytewise_lawful.
  - apply into_vec_lawful.
  - intros r v. apply consume_each_implements.
  - apply call_implements.
  - repeat constructor.
Qed.

(** A consumer that fails: the second encoding is cut short. The future of task 2 is dropped while it is waiting. *)
Definition ex_failp (r v : byte) : prog (test_consumer_state byte unit nat) (res unit nat) := consume_each_prog (test_consumer x00) (diff_enc r v).
Definition ex_fail_flushp : prog (test_consumer_state byte unit nat) (res unit nat) := prog_call (fun s => c_flush (test_consumer x00) s).
Example C51_error_example :
  exists y, careful (shared_relative_encoder (F := unit) ex_failp ex_fail_flushp)
    (system_new (test_consumer_build 5 3 (Some [1]) None) [(x07, [EConsume x08]); (x07, [EConsume x05]); (x07, [EConsume x06])])
    [Poll 0; Poll 0; Poll 1; Poll 2; Poll 0; Drop 2; Poll 0; Poll 0; Poll 1; Poll 1; Poll 1; Poll 1] y /\
    sy_hist y = [(0, (x07, EConsume x08, Ok tt)); (1, (x07, EConsume x05, Err 5))] /\
    test_consumer_consumed (sy_shared y) = Ret [x01; x08; x01] /\
    map (fun t => map snd (tk_log t)) (sy_tasks y) = [[Some (Ok tt)]; [Some (Err 5)]; [None]].
Proof.
  eexists. splits.
  - repeat (eapply careful_step; [cbn; reflexivity|intros i Hi; try discriminate; injection Hi as <-; cbn; discriminate|]).
    apply careful_nil.
  - reflexivity.
  - reflexivity.
  - reflexivity.
Qed.

(** The future of task 0 is dropped while it has the lock, in the middle of an encoding; task 1 then gets the lock. *)
Example C51_any_execution_case :
  exists y, sys_run (shared_relative_encoder (F := unit) ex_failp ex_fail_flushp)
    [Poll 0; Poll 0; Poll 1; Poll 1; Poll 0; Drop 0; Poll 1; Poll 1]
    (system_new (test_consumer_build 5 3 (Some [1]) None) [(x07, [EConsume x08]); (x07, [EConsume x05])]) = Ret y /\
    sy_holder y = Some 1 /\ sy_hist y = [] /\
    test_consumer_consumed (sy_shared y) = Ret [x01; x01] /\
    map (fun t => map snd (tk_log t)) (sy_tasks y) = [[None]; []].
Proof. eexists. splits; vm_compute; reflexivity. Qed.

(** The reference value of a call is the one that its task set last: [map fst (tk_log t)] are the calls that task [i] has made so far,
    and the part of the history that belongs to it are those of them that were completed (setting the
    reference value and closing do not use the consumer). *)
Theorem C51_references :
  forall (S V F E RT : Type) (encp : RT -> V -> prog S (res unit E)) flushp s0 (tasks : list (RT * list (ecall RT V F))) evs y i t r cs,
  careful (shared_relative_encoder encp flushp) (system_new s0 tasks) evs y ->
  nth_error tasks i = Some (r, cs) -> nth_error (sy_tasks y) i = Some t ->
  (exists rest, with_references ecall_sets r cs = map fst (tk_log t) ++ pending t ++ rest) /\
  of_task i (sy_hist y) = completed ecall_uses (tk_log t).
Proof.
  intros S V F E RT encp flushp s0 tasks evs y i t r cs H Hi Ht.
  destruct (C51_task_order _ _ _ _ _ _ _ _ _ _ _ H Ht) as (r' & cs' & E1 & E2 & E3). rewrite Hi in E1. injection E1 as <- <-.
  split.
  - erewrite <- with_locals_references; [rewrite E2; eauto|]. intros r0 [v|f| |r1]; reflexivity.
  - rewrite E3. apply locked_calls_completed. intros r0 [v|f| |r1]; reflexivity.
Qed.
Print Assumptions C51_references.

(** *** C52. The answers that the tasks get are those that a single [RelativeDecoder] gives when the calls are made in the order of the
    history, each with the reference value of its task, and the producer is where that decoder leaves it. *)
Theorem C52_same_as_relative_decoder :
  forall (S V F E O RT : Type) (decode : RT -> decode_fn V O) (P : bulk_producer S byte F E) exposep decp slurpp s0 tasks evs y,
  implements exposep (fun s => p_expose P s) -> (forall r, implements (decp r) (fun s => decode r _ _ _ P s)) ->
  implements slurpp (fun s => p_slurp P s) ->
  careful (shared_relative_decoder exposep decp slurpp) (system_new s0 tasks) evs y ->
  in_turn (map (fun e => decoder_call decode P (fst (snd e))) (sy_hist y)) s0 =
    (map (fun e => snd (snd e)) (sy_hist y), Ret (sy_base y)).
Proof.
  intros S V F E O RT decode P exposep decp slurpp s0 tasks evs y IX ID IS H.
  destruct (C51_lock_order _ _ _ _ _ _ _ _ _ H) as [H1 _]. rewrite <- H1. apply in_turn_ext.
  intros [i [[r [| |r']] x]] s; unfold call_alone, decoder_call; cbn [fst snd shared_relative_decoder].
  - symmetry. exact (shared_produce_alone decode P decp IX ID r s).
  - symmetry. exact (shared_slurp_alone P IS s).
  - reflexivity.
Qed.
Print Assumptions C52_same_as_relative_decoder.

Theorem C52_same_as_decoder :
  forall (S V F E O : Type) (decode : decode_fn V O) (P : bulk_producer S byte F E) exposep decp slurpp s0 tasks evs y,
  implements exposep (fun s => p_expose P s) -> implements decp (fun s => decode _ _ _ P s) ->
  implements slurpp (fun s => p_slurp P s) ->
  careful (shared_decoder exposep decp slurpp) (system_new s0 tasks) evs y ->
  in_turn (map (fun e => decoder_call (fun _ => decode) P (fst (snd e))) (sy_hist y)) s0 =
    (map (fun e => snd (snd e)) (sy_hist y), Ret (sy_base y)).
Proof.
  intros S V F E O decode P exposep decp slurpp s0 tasks evs y IX ID IS H.
  destruct (C51_lock_order _ _ _ _ _ _ _ _ _ H) as [H1 _]. rewrite <- H1. apply in_turn_ext.
  intros [i [[r [| |[]]] x]] s; unfold call_alone, decoder_call; cbn [fst snd shared_decoder].
  - symmetry. exact (shared_produce_alone (fun _ : unit => decode) P (fun _ => decp) IX (fun _ => ID) tt s).
  - symmetry. exact (shared_slurp_alone P IS s).
Qed.
Print Assumptions C52_same_as_decoder.

Theorem C52_references :
  forall (S V F E O RT : Type) exposep (decp : RT -> prog S (res V (decode_error F E O))) slurpp s0
    (tasks : list (RT * list (dcall RT))) evs y i t r cs,
  careful (shared_relative_decoder exposep decp slurpp) (system_new s0 tasks) evs y ->
  nth_error tasks i = Some (r, cs) -> nth_error (sy_tasks y) i = Some t ->
  (exists rest, with_references dcall_sets r cs = map fst (tk_log t) ++ pending t ++ rest) /\
  of_task i (sy_hist y) = completed dcall_uses (tk_log t).
Proof.
  intros S V F E O RT exposep decp slurpp s0 tasks evs y i t r cs H Hi Ht.
  destruct (C51_task_order _ _ _ _ _ _ _ _ _ _ _ H Ht) as (r' & cs' & E1 & E2 & E3). rewrite Hi in E1. injection E1 as <- <-.
  split.
  - erewrite <- with_locals_references; [rewrite E2; eauto|]. intros r0 [| |r1]; reflexivity.
  - rewrite E3. apply locked_calls_completed. intros r0 [| |r1]; reflexivity.
Qed.
Print Assumptions C52_references.

(** The values are those of the bytes: no encoding is split. *)
Theorem C52_values :
  forall (S V F E O RT : Type) (decode : RT -> decode_fn V O) dec (P : bulk_producer S byte F E) R D exposep decp slurpp
    s0 xs l k r0 tasks evs y,
  (forall r, lawful_decode (decode r) (dec r)) -> lawful_producer P R D -> lawful_slurp P R D ->
  implements exposep (fun s => p_expose P s) -> (forall r, implements (decp r) (fun s => decode r _ _ _ P s)) ->
  implements slurpp (fun s => p_slurp P s) ->
  R s0 xs l k ->
  careful (shared_relative_decoder exposep decp slurpp) (system_new s0 tasks) evs y ->
  Forall (fun e => answer_continues (snd (snd e))) (sy_hist y) ->
  exists rest k', rel_decodes dec r0 (produce_events (map (fun e => fst (snd e)) (sy_hist y))) xs l =
      (rest, answered_items (map (fun e => snd (snd e)) (sy_hist y)), None) /\
    R (sy_base y) rest l k' /\
    (* nothing can fail *)
    forall ev, exists y', sys_step (shared_relative_decoder exposep decp slurpp) ev y = Ret y'.
Proof.
  intros S V F E O RT decode dec P R D exposep decp slurpp s0 xs l k r0 tasks evs y LD LP LS IX ID IS HR H HF.
  destruct (C51_lock_order _ _ _ _ _ _ _ _ _ H) as [H1 _]. rewrite <- map_map in H1.
  destruct (decoder_in_turn decode dec decp LD LP LS IX ID IS _ _ _ _ _ r0 HR H1) as (rest & k' & E1 & HR').
  { apply Forall_forall. intros x Hx. apply in_map_iff in Hx as (e & <- & He). rewrite Forall_forall in HF. auto. }
  exists rest, k'. refine (conj E1 (conj HR' _)). intros ev.
  destruct (sys_step (shared_relative_decoder exposep decp slurpp) ev y) as [y'| |] eqn:E2; [eauto| |]; exfalso;
    (destruct (@sys_step_fails _ _ _ _ _ s0 tasks y ev (careful_ok H (sys_ok_new _ s0 tasks))) as (i & t & r & c & p & _ & _ & _ & E3);
     [rewrite E2; discriminate|];
     destruct (decoder_call_ok decode dec decp LD LP LS IX ID IS (r, c) _ _ _ _ HR') as (s' & x & E4 & _); exact (E3 _ _ E4)).
Qed.
Print Assumptions C52_values.

(** The first answer that is not an item is what the bytes say: the last value or error, or a decoding error. *)
Theorem C52_first_end :
  forall (S V F E O RT : Type) (decode : RT -> decode_fn V O) dec (P : bulk_producer S byte F E) R D exposep decp slurpp
    s0 xs l k r0 tasks evs y h1 i rc x h2,
  (forall r, lawful_decode (decode r) (dec r)) -> lawful_producer P R D -> lawful_slurp P R D ->
  implements exposep (fun s => p_expose P s) -> (forall r, implements (decp r) (fun s => decode r _ _ _ P s)) ->
  implements slurpp (fun s => p_slurp P s) ->
  R s0 xs l k ->
  careful (shared_relative_decoder exposep decp slurpp) (system_new s0 tasks) evs y ->
  sy_hist y = h1 ++ (i, (rc, x)) :: h2 -> Forall (fun e => answer_continues (snd (snd e))) h1 -> ~ answer_continues x ->
  (exists rest last, rel_decodes dec r0 (produce_events (map (fun e => fst (snd e)) h1 ++ [rc])) xs l =
      (rest, answered_items (map (fun e => snd (snd e)) h1), Some last) /\ snd rc = DProduce /\ x = BPItem (report_last last)) \/
  (exists e, rel_decodes dec r0 (produce_events (map (fun e => fst (snd e)) h1)) xs l =
      ([], answered_items (map (fun e => snd (snd e)) h1), None) /\ l = Err e /\ snd rc = DSlurp /\ x = BPUnit (Err (Producer e))).
Proof.
  intros S V F E O RT decode dec P R D exposep decp slurpp s0 xs l k r0 tasks evs y h1 i rc x h2 LD LP LS IX ID IS HR H Hh HF HN.
  destruct (C51_lock_order _ _ _ _ _ _ _ _ _ H) as [H1 _]. rewrite Hh in H1. rewrite !map_app in H1. cbn [map snd fst] in H1.
  destruct (in_turn_split _ _ _ _ _ _ _ H1) as (s2 & s3 & E1 & E2); [now rewrite !map_length|].
  rewrite <- map_map in E1.
  destruct (decoder_in_turn decode dec decp LD LP LS IX ID IS _ _ _ _ _ r0 HR E1) as (rest & k' & E3 & HR').
  { apply Forall_forall. intros e' Hx. apply in_map_iff in Hx as (e & <- & He). rewrite Forall_forall in HF. auto. }
  destruct (decoder_call_ok decode dec decp LD LP LS IX ID IS rc _ _ _ _ HR') as (s' & x' & E4 & HC).
  rewrite E4 in E2. injection E2 as <- ->.
  destruct HC as [[HC _]|[(Hp & last & rest2 & Ex & HC)|(Hs & e & -> & El & Ex)]]; [contradiction| |].
  - left. exists rest2, last. rewrite produce_events_app, rel_decodes_app, E3, HC, app_nil_r. auto.
  - right. exists e. auto.
Qed.
Print Assumptions C52_first_end.

(** The same for the variants without reference value. *)
Theorem C52_plain_values :
  forall (S V F E O : Type) (decode : decode_fn V O) dec (P : bulk_producer S byte F E) R D exposep decp slurpp
    s0 xs l k tasks evs y,
  lawful_decode decode dec -> lawful_producer P R D -> lawful_slurp P R D ->
  implements exposep (fun s => p_expose P s) -> implements decp (fun s => decode _ _ _ P s) ->
  implements slurpp (fun s => p_slurp P s) ->
  R s0 xs l k ->
  careful (shared_decoder exposep decp slurpp) (system_new s0 tasks) evs y ->
  Forall (fun e => answer_continues (snd (snd e))) (sy_hist y) ->
  exists rest k', R (sy_base y) rest l k' /\
    rel_decodes (fun _ => dec) tt
      (flat_map (fun e => match snd (fst (snd e)) with DProduce => [RelItem tt] | _ => [] end) (sy_hist y)) xs l =
      (rest, answered_items (map (fun e => snd (snd e)) (sy_hist y)), None).
Proof.
  intros S V F E O decode dec P R D exposep decp slurpp s0 xs l k tasks evs y LD LP LS IX ID IS HR H HF.
  destruct (C51_lock_order _ _ _ _ _ _ _ _ _ H) as [H1 _].
  rewrite (map_ext (fun e => call_alone (shared_decoder exposep decp slurpp) (fst (snd e)))
    (fun e => call_alone (shared_relative_decoder exposep (fun _ => decp) slurpp) (tt, embed_dcall (snd (fst (snd e)))))) in H1
    by (intros [j [[[] c] x]]; apply shared_decoder_alone).
  rewrite <- (map_map (fun e => (tt, embed_dcall (snd (fst (snd e))))) (call_alone (shared_relative_decoder exposep (fun _ => decp) slurpp))) in H1.
  destruct (decoder_in_turn (fun _ => decode) (fun _ => dec) (fun _ => decp) (fun _ => LD) LP LS IX (fun _ => ID) IS _ _ _ _ _ tt HR H1)
    as (rest & k' & E1 & HR').
  { apply Forall_forall. intros x Hx. apply in_map_iff in Hx as (e & <- & He). rewrite Forall_forall in HF. auto. }
  exists rest, k'. split; [exact HR'|]. rewrite <- E1.
  generalize (sy_hist y) xs. clear. induction l0 as [|[j [[u [| |[]]] x]] h IH]; intros xs; cbn; auto.
  destruct xs as [|x0 xs]; [reflexivity|]. destruct (dec (x0 :: xs)); auto. unfold produce_events in IH. now rewrite IH.
Qed.
Print Assumptions C52_plain_values.

Ltac run_careful :=
  repeat (eapply careful_step; [cbn; reflexivity|intros i Hi; try discriminate; injection Hi as <-; cbn; discriminate|]);
  apply careful_nil.

(** Two tasks take optional bytes from [01 07 00 01 08]; the producer offers at most two bytes at once. The second
    task starts in the middle of the first encoding, and its next-to-last call is cancelled while it waits. *)
Definition ex_state := test_producer_state byte nat nat.
Definition ex_exposep : prog ex_state (res (list byte + nat) nat) := prog_call (fun s => p_expose test_producer s).
Definition ex_slurpp : prog ex_state (res unit nat) := prog_call (fun s => p_slurp test_producer s).
Definition ex_decp : prog ex_state (res (option byte) (decode_error nat nat byte)) := opt_decode_prog test_producer.
Definition ex_bytes : ex_state := test_producer_build [x01; x07; x00; x01; x08] (Ok 5) (Some [2; 1]) None.

Example C52_example :
  (exists y, careful (shared_decoder ex_exposep ex_decp ex_slurpp)
     (system_new ex_bytes [(tt, [DProduce; DSlurp; DProduce]); (tt, [DProduce; DProduce; DProduce])])
     [Poll 0; Poll 0; Poll 0; Poll 0; Poll 1; Poll 1; Poll 0; Poll 1; Poll 0; Poll 0; Poll 1; Poll 1; Poll 0; Poll 1; Poll 1;
      Poll 1; Poll 0; Poll 1; Drop 1; Poll 0; Poll 0; Poll 0; Poll 0; Poll 0; Poll 0; Poll 0; Poll 0; Poll 0;
      Poll 1; Poll 1; Poll 1; Poll 1] y /\
     sy_hist y = [(0, (tt, DProduce, BPItem (Ok (inl (Some x07))))); (1, (tt, DProduce, BPItem (Ok (inl None))));
       (0, (tt, DSlurp, BPUnit (Ok tt))); (0, (tt, DProduce, BPItem (Ok (inl (Some x08)))));
       (1, (tt, DProduce, BPItem (Ok (inr 5))))]) /\
  (* before the last value *)
  (exists y, careful (shared_decoder ex_exposep ex_decp ex_slurpp)
     (system_new ex_bytes [(tt, [DProduce]); (tt, [DProduce])])
     [Poll 0; Poll 1; Poll 1; Poll 0; Poll 1; Poll 1; Poll 0; Poll 1; Poll 1; Poll 0; Poll 0; Poll 0; Poll 0] y /\
     sy_hist y = [(1, (tt, DProduce, BPItem (Ok (inl (Some x07))))); (0, (tt, DProduce, BPItem (Ok (inl None))))] /\
     Forall (fun e => answer_continues (snd (snd e))) (sy_hist y) /\
     sy_holder y = None) /\
  lawful_decode opt_decode opt_dec /\
  lawful_producer (@test_producer byte nat nat) tp_rel tp_end /\ lawful_slurp (@test_producer byte nat nat) tp_rel tp_end /\
  implements ex_exposep (fun s => p_expose test_producer s) /\ implements ex_decp (fun s => opt_decode test_producer s) /\
  implements ex_slurpp (fun s => p_slurp test_producer s) /\
  tp_rel ex_bytes [x01; x07; x00; x01; x08] (Ok 5) 0.
Proof.
  refine (conj _ (conj _ (conj _ (conj _ (conj _ (conj _ (conj _ (conj _ _)))))))).
  - eexists. split.
    + run_careful.
    + reflexivity.
  - eexists. refine (conj _ (conj _ (conj _ _))).
    + run_careful.
    + reflexivity.
    + repeat constructor.
    + reflexivity.
  - exact opt_lawful_decode.
  - apply test_producer_lawful.
  - apply test_producer_slurp_lawful.
  - apply call_implements.
  - apply opt_decode_implements.
  - apply call_implements.
  - apply tp_rel_build; repeat constructor.
Qed.

(** *** C57. Every task makes a single call, so no task makes a call after an error or a last value. Yet the shared
    object gets a call after an error (a last value), and panics. *)
Theorem C57_encoder_refuted :
  exists (tasks : list (byte * list (ecall byte byte unit))) evs y,
  let s0 := test_consumer_build 5 0 None None in
  Forall (fun t => length (snd t) = 1) tasks /\
  (forall r, lawful_encode (bytewise_encode (diff_enc r)) (diff_enc r)) /\
  lawful_consumer (@test_consumer byte unit nat x00) (failing_machine byte unit 5) (tc_rel 5) (tc_end 5) /\
  (forall r v, implements (ex_failp r v) (fun s => bytewise_encode (diff_enc r) (test_consumer x00) v s)) /\
  implements ex_fail_flushp (fun s => c_flush (test_consumer x00) s) /\
  tc_rel 5 s0 (mk_tstate [] None 0 false) 0 [] /\
  careful (shared_relative_encoder ex_failp ex_fail_flushp) (system_new s0 tasks) evs y /\
  sys_step (shared_relative_encoder ex_failp ex_fail_flushp) (Poll 1) y = Panic.
Proof.
  exists [(x00, [EConsume x01]); (x00, [EConsume x02])], [Poll 0; Poll 0; Poll 0; Poll 0; Poll 1; Poll 1]. eexists. cbn zeta.
  refine (conj _ (conj _ (conj _ (conj _ (conj _ (conj _ (conj _ _))))))).
  - repeat constructor.
  - intros r. apply bytewise_lawful.
  - apply test_consumer_lawful.
  - intros r v. apply consume_each_implements.
  - apply call_implements.
  - apply tc_rel_build. exact I.
  - run_careful.
  - reflexivity.
Qed.
Print Assumptions C57_encoder_refuted.

Theorem C57_decoder_refuted :
  exists (tasks : list (unit * list (dcall infallible))) evs y,
  let s0 := test_producer_build [] (Ok 5) None None in
  Forall (fun t => length (snd t) = 1) tasks /\
  lawful_decode opt_decode opt_dec /\
  lawful_producer (@test_producer byte nat nat) tp_rel tp_end /\ lawful_slurp (@test_producer byte nat nat) tp_rel tp_end /\
  implements ex_exposep (fun s => p_expose test_producer s) /\ implements ex_decp (fun s => opt_decode test_producer s) /\
  implements ex_slurpp (fun s => p_slurp test_producer s) /\
  tp_rel s0 [] (Ok 5) 0 /\
  careful (shared_decoder ex_exposep ex_decp ex_slurpp) (system_new s0 tasks) evs y /\
  sys_step (shared_decoder ex_exposep ex_decp ex_slurpp) (Poll 1) y = Panic.
Proof.
  exists [(tt, [DProduce]); (tt, [DProduce])], [Poll 0; Poll 0; Poll 0; Poll 0; Poll 1; Poll 1]. eexists. cbn zeta.
  refine (conj _ (conj _ (conj _ (conj _ (conj _ (conj _ (conj _ (conj _ (conj _ _))))))))).
  - repeat constructor.
  - exact opt_lawful_decode.
  - apply test_producer_lawful.
  - apply test_producer_slurp_lawful.
  - apply call_implements.
  - apply opt_decode_implements.
  - apply call_implements.
  - apply tp_rel_build; repeat constructor.
  - run_careful.
  - reflexivity.
Qed.
Print Assumptions C57_decoder_refuted.

(** After a decoding error, on the other hand, the producer is still active, and the next task decodes from
    the middle of what the first task could not decode. *)
Theorem C57_resumes_refuted :
  exists (tasks : list (unit * list (dcall infallible))) evs y,
  Forall (fun t => length (snd t) = 1) tasks /\
  careful (shared_decoder ex_exposep ex_decp ex_slurpp)
    (system_new (test_producer_build [x02; x01; x07] (Ok 5) None None) tasks) evs y /\
  sy_hist y = [(0, (tt, DProduce, BPItem (Err (Other x02)))); (1, (tt, DProduce, BPItem (Ok (inl (Some x07)))))].
Proof.
  exists [(tt, [DProduce]); (tt, [DProduce])], [Poll 0; Poll 0; Poll 0; Poll 0; Poll 0; Poll 1; Poll 1; Poll 1; Poll 1; Poll 1; Poll 1].
  eexists. refine (conj _ (conj _ _)).
  - repeat constructor.
  - run_careful.
  - reflexivity.
Qed.
Print Assumptions C57_resumes_refuted.

(** *** C58. A task drops its future after the first byte of an encoding, another one goes on. The bytes are not a sequence of encodings of
    values that the tasks have consumed; they are in fact the encoding of another value. *)
Definition ex_vecp (v : option byte) : prog (into_vec byte) (res unit infallible) := consume_each_prog (into_vec_consumer x00) (opt_enc v).
Theorem C58_refuted :
  exists (tasks : list (unit * list (ecall infallible (option byte) unit))) evs y,
  tasks = [(tt, [EConsume (Some x07)]); (tt, [EConsume None])] /\
  lawful_encode (bytewise_encode opt_enc) opt_enc /\
  (forall v, implements (ex_vecp v) (fun s => bytewise_encode opt_enc (into_vec_consumer x00) v s)) /\
  implements ex_flushp (fun s => c_flush (into_vec_consumer x00) s) /\
  sys_run (shared_encoder ex_vecp ex_flushp) evs (system_new into_vec_new tasks) = Ret y /\
  sy_holder y = None /\ all_done y /\
  (~ exists vs, Forall (fun v => v = Some x07 \/ v = None) vs /\ into_vec_into_vec (sy_shared y) = enc_all opt_enc vs) /\
  into_vec_into_vec (sy_shared y) = opt_enc (Some x00).
Proof.
  eexists. exists [Poll 0; Poll 0; Poll 0; Drop 0; Poll 1; Poll 1; Poll 1; Poll 1]. eexists.
  refine (conj eq_refl (conj _ (conj _ (conj _ (conj _ (conj _ (conj _ (conj _ _)))))))).
  - apply bytewise_lawful.
  - intros v. apply consume_each_implements.
  - apply call_implements.
  - vm_compute. reflexivity.
  - reflexivity.
  - repeat constructor.
  - cbn. intros (vs & HF & H). destruct vs as [|v vs]; [discriminate|]. inversion HF as [|? ? [->| ->] _]; subst; discriminate.
  - reflexivity.
Qed.
Print Assumptions C58_refuted.

(** Property C81: shared producers and consumers with the futures of asynchronous objects and codecs. *)
From Coq Require Import Bool List Arith ZArith Lia.
From Coq.Init Require Import Byte.
From Verif Require Import Prelude ListFacts Traits Contracts ContractFacts BasicModel BasicSpec BasicProofs AdaptorSpec CodecModel CodecSpec EndianModel
  EndianSpec EndianProofs SharedModel SharedSpec SharedProofs PropShared AsyncModel AsyncAdaptorModel AsyncSpec AsyncProofs AsyncAdaptorProofs
  AsyncSuspendProofs AsyncSharedModel AsyncSharedProofs.
Import ListNotations.
Open Scope nat_scope.

(** What C51 says about programs that can be interrupted anywhere holds for the futures: as long as there has been no error, the consumer
    has received complete encodings, one after the other, except for the one that whoever has the lock is writing. *)
Theorem C81_encodings :
  forall (S A V F E RT : Type) (a_encode : RT -> a_encode_fn V) encode enc (C : a_bulk_consumer S byte F E) (M : machine A byte F E) R D
    s0 a k w tasks evs y,
  (forall r, completes_encode (a_encode r) (encode r)) -> (forall r, lawful_encode (encode r) (enc r)) ->
  lawful_consumer (blocking_bulk_consumer C) M R D -> R s0 a k w ->
  careful (a_shared_relative_encoder a_encode C) (system_new s0 tasks) evs y ->
  Forall (fun e => snd (snd e) = Ok tt) (sy_hist y) ->
  exists a' k' w', feed_calls M enc (map (fun e => fst (snd e)) (sy_hist y)) a = (a', None) /\ R (sy_base y) a' k' w' /\
    (forall ev, exists y', sys_step (a_shared_relative_encoder a_encode C) ev y = Ret y') /\
    match sy_holder y with
    | None => sy_shared y = sy_base y
    | Some i => exists t r c p, nth_error (sy_tasks y) i = Some t /\ tk_now t = Running r c p /\
        match feed_calls M enc [(r, c)] a' with
        | (a'', None) => exists s' k'' w'', run_prog p (sy_shared y) = Ret (s', Ok tt) /\ R s' a'' k'' w''
        | (a'', Some e) => exists s', run_prog p (sy_shared y) = Ret (s', Err e) /\ D s' a''
        end
    end.
Proof.
  intros S A V F E RT a_encode encode enc C M R D s0 a k w tasks evs y HC LE LC HR H HF.
  assert (IE : forall r v, implements (fut_prog (a_encode r _ _ _ C v)) (fun s => encode r _ _ _ (blocking_bulk_consumer C) v s))
    by (intros r v; apply codec_implements_encode, HC).
  assert (IF : implements (fut_prog (ac_flush C)) (fun s => c_flush (blocking_bulk_consumer C) s)) by exact (fut_prog_implements _ _ _).
  destruct (C51_encodings _ _ _ _ _ _ _ _ _ _ _ _ _ _ _ _ _ _ _ _ _ LE LC IE IF HR H HF) as (a' & k' & w' & E1 & HR' & HL).
  exists a', k', w'. refine (conj E1 (conj HR' (conj _ HL))).
  intros ev. exact (C51_no_panic _ _ _ _ _ _ _ _ _ _ _ _ _ _ _ _ _ _ _ _ _ ev LE LC IE IF HR H HF).
Qed.
Print Assumptions C81_encodings.

(** Integers of the endian wrappers, written by any number of tasks to a [TestConsumer] that is [Pending] according to any pattern: if no
    call has failed and nobody has the lock, its items are the encodings in the order in which the calls had the lock. *)
Theorem C81_integers :
  forall (w : wrapper) (F E : Type) (error : E) n sizes pattern (tasks : list (unit * list (ecall infallible (num (wrapped w)) F))) evs y,
  (match sizes with Some l => Forall (fun n => 1 <= n) l | None => True end) ->
  careful (a_shared_encoder (a_endian_encode w) (a_test_consumer x00)) (system_new (test_consumer_build error n sizes pattern) tasks) evs y ->
  Forall (fun e => snd (snd e) = Ok tt) (sy_hist y) -> sy_holder y = None ->
  exists chunks, Forall2 (encodes w) (flat_map (fun e => match snd (fst (snd e)) with EConsume v => [v] | _ => [] end) (sy_hist y)) chunks /\
    test_consumer_consumed (sy_shared y) = Ret (concat chunks).
Proof.
  intros w F E error n sizes pattern tasks evs y Hs H HF Hh.
  exists (map (to_bytes w) (flat_map (fun e => match snd (fst (snd e)) with EConsume v => [v] | _ => [] end) (sy_hist y))). split.
  - induction (flat_map _ _) as [|v vs IH]; cbn; constructor; auto. now apply encodes_iff.
  - rewrite (@shared_test_consumer _ F E (to_bytes w) (endian_encode w) error n sizes pattern _ _ tasks evs y (endian_lawful_encode w) Hs
      (fun v => codec_implements_encode _ _ _ _ _ _ _ v (endian_encode_completes w)) (fut_prog_implements _ _ _) H HF Hh).
    f_equal. clear. induction (sy_hist y) as [|[i [[u [v|f| |r]] x]] h IH]; cbn in *; congruence.
Qed.
Print Assumptions C81_integers.

(** Decoders: the answers, in the order in which the calls had the lock, are what the bytes say. *)
Theorem C81_values :
  forall (S V F E O RT : Type) (a_decode : RT -> a_decode_fn V O) decode dec (P : a_bulk_producer S byte F E) R D s0 xs l k r0 tasks evs y,
  (forall r, completes_decode (a_decode r) (decode r)) -> (forall r, lawful_decode (decode r) (dec r)) ->
  lawful_producer (blocking_bulk_producer P) R D -> lawful_slurp (blocking_bulk_producer P) R D -> R s0 xs l k ->
  careful (a_shared_relative_decoder a_decode P) (system_new s0 tasks) evs y ->
  Forall (fun e => answer_continues (snd (snd e))) (sy_hist y) ->
  exists rest k', rel_decodes dec r0 (produce_events (map (fun e => fst (snd e)) (sy_hist y))) xs l =
      (rest, answered_items (map (fun e => snd (snd e)) (sy_hist y)), None) /\
    R (sy_base y) rest l k' /\
    forall ev, exists y', sys_step (a_shared_relative_decoder a_decode P) ev y = Ret y'.
Proof.
  intros S V F E O RT a_decode decode dec P R D s0 xs l k r0 tasks evs y HC LD LP LS HR H HF.
  assert (ID : forall r, implements (fut_prog (a_decode r _ _ _ P)) (fun s => decode r _ _ _ (blocking_bulk_producer P) s))
    by (intros r; apply codec_implements_decode, HC).
  exact (C52_values _ _ _ _ _ _ _ _ _ _ _ _ _ _ _ _ _ _ r0 _ _ _ LD LP LS (fut_prog_implements _ _ _) ID (fut_prog_implements _ _ _) HR H HF).
Qed.
Print Assumptions C81_values.

(** For arbitrary objects and codecs: the calls that had the lock gave, in this order, what the adaptors that own their object would have
    given, with futures that run to completion. *)
Theorem C81_same_encoders :
  (forall (S V F E RT : Type) (a_encode : RT -> a_encode_fn V) encode (C : a_bulk_consumer S byte F E) s0 tasks evs y,
     (forall r, completes_encode (a_encode r) (encode r)) ->
     careful (a_shared_relative_encoder a_encode C) (system_new s0 tasks) evs y ->
     in_turn (map (fun e => encoder_call encode (blocking_bulk_consumer C) (fst (snd e))) (sy_hist y)) s0 =
       (map (fun e => snd (snd e)) (sy_hist y), Ret (sy_base y))) /\
  (forall (S V F E : Type) (a_encode : a_encode_fn V) encode (C : a_bulk_consumer S byte F E) s0 tasks evs y,
     completes_encode a_encode encode ->
     careful (a_shared_encoder a_encode C) (system_new s0 tasks) evs y ->
     in_turn (map (fun e => encoder_call (fun _ => encode) (blocking_bulk_consumer C) (fst (snd e))) (sy_hist y)) s0 =
       (map (fun e => snd (snd e)) (sy_hist y), Ret (sy_base y))).
Proof.
  split.
  - intros S V F E RT a_encode encode C s0 tasks evs y HC H. destruct (C51_lock_order _ _ _ _ _ _ _ _ _ H) as [H1 _]. rewrite <- H1. apply in_turn_ext.
    intros [i [[r [v|f| |r']] x]] s; unfold call_alone, encoder_call; cbn [fst snd a_shared_relative_encoder shared_relative_encoder]; try reflexivity.
    + symmetry. exact (codec_implements_encode _ _ _ _ _ _ C v (HC r) s).
    + symmetry. exact (fut_prog_implements _ _ _ s).
  - intros S V F E a_encode encode C s0 tasks evs y HC H. destruct (C51_lock_order _ _ _ _ _ _ _ _ _ H) as [H1 _]. rewrite <- H1. apply in_turn_ext.
    intros [i [[r [v|f| |[]]] x]] s; unfold call_alone, encoder_call; cbn [fst snd a_shared_encoder shared_encoder]; try reflexivity.
    + symmetry. exact (codec_implements_encode _ _ _ _ _ _ C v HC s).
    + symmetry. exact (fut_prog_implements _ _ _ s).
Qed.
Print Assumptions C81_same_encoders.
Theorem C81_same_decoders :
  (forall (S V F E O RT : Type) (a_decode : RT -> a_decode_fn V O) decode (P : a_bulk_producer S byte F E) s0 tasks evs y,
     (forall r, completes_decode (a_decode r) (decode r)) ->
     careful (a_shared_relative_decoder a_decode P) (system_new s0 tasks) evs y ->
     in_turn (map (fun e => decoder_call decode (blocking_bulk_producer P) (fst (snd e))) (sy_hist y)) s0 =
       (map (fun e => snd (snd e)) (sy_hist y), Ret (sy_base y))) /\
  (forall (S V F E O : Type) (a_decode : a_decode_fn V O) decode (P : a_bulk_producer S byte F E) s0 tasks evs y,
     completes_decode a_decode decode ->
     careful (a_shared_decoder a_decode P) (system_new s0 tasks) evs y ->
     in_turn (map (fun e => decoder_call (fun _ => decode) (blocking_bulk_producer P) (fst (snd e))) (sy_hist y)) s0 =
       (map (fun e => snd (snd e)) (sy_hist y), Ret (sy_base y))).
Proof.
  split.
  - intros S V F E O RT a_decode decode P s0 tasks evs y HC H.
    assert (ID : forall r, implements (fut_prog (a_decode r _ _ _ P)) (fun s => decode r _ _ _ (blocking_bulk_producer P) s))
      by (intros r; apply codec_implements_decode, HC).
    exact (C52_same_as_relative_decoder _ _ _ _ _ _ decode (blocking_bulk_producer P) _ _ _ _ _ _ _ (fut_prog_implements _ _ _) ID (fut_prog_implements _ _ _) H).
  - intros S V F E O a_decode decode P s0 tasks evs y HC H.
    assert (ID : implements (fut_prog (a_decode _ _ _ P)) (fun s => decode _ _ _ (blocking_bulk_producer P) s)) by (apply codec_implements_decode, HC).
    exact (C52_same_as_decoder _ _ _ _ _ decode (blocking_bulk_producer P) _ _ _ _ _ _ _ (fut_prog_implements _ _ _) ID (fut_prog_implements _ _ _) H).
Qed.
Print Assumptions C81_same_decoders.

(** A call that gets the lock keeps it exactly as long as its future takes: to be served, a task that has found the lock free is polled
    once, then once more than its future is [Pending], then once to give back the lock. *)
Theorem C81_served :
  forall (S X L K : Type) (sem : L -> K -> L * body S X) (f : fut S X) y i t l c s' x,
  nth_error (sy_tasks y) i = Some t -> tk_now t = Waiting l c (fut_prog f) -> sy_holder y = None ->
  run f (sy_shared y) = Ret (s', x) ->
  exists y', sys_run sem (repeat (Poll i) (pendings f (sy_shared y) + 3)) y = Ret y' /\
    sy_shared y' = s' /\ sy_holder y' = None /\ sy_hist y' = sy_hist y ++ [(i, (l, c, x))].
Proof.
  intros S X L K sem f y i t l c s' x Ht Hn Hh Hr. eexists.
  split; [exact (call_polls sem f y i t l c s' x Ht Hn Hh Hr)|]. cbn. auto.
Qed.
Print Assumptions C81_served.

(** *** Examples *)

Lemma run_polls : forall S X L K (sem : L -> K -> L * body S X) evs y0 (Q : system S X L K -> Prop), Forall is_poll evs ->
  match sys_run sem evs y0 with Ret y => Q y | _ => False end -> exists y, careful sem y0 evs y /\ Q y.
Proof.
  intros S X L K sem evs y0 Q HF H. destruct (sys_run sem evs y0) as [y| |] eqn:E1; try contradiction. exists y.
  split; [now apply polls_careful|exact H].
Qed.

(** Two tasks write 16-bit integers to a consumer that accepts one byte at a time and is [Pending] every other time. *)
Definition ex_int_tasks : list (unit * list (ecall infallible (num (wrapped U16BE)) unit)) :=
  [(tt, [EConsume (num_of u16 258); EFlush]); (tt, [EConsume (num_of u16 772)])].
Definition ex_int_start : system (test_consumer_state byte unit nat) (res unit nat) unit (ecall infallible (num (wrapped U16BE)) unit) :=
  system_new (test_consumer_build 5 100 (Some [1]) (Some [false; true])) ex_int_tasks.
Definition ex_int_sem := @a_shared_encoder _ _ unit nat (a_endian_encode U16BE) (a_test_consumer x00).
Definition ex_int_schedule : list event := concat (repeat [Poll 0; Poll 1] 17).

Example C81_example :
  (exists y, careful ex_int_sem ex_int_start ex_int_schedule y /\
     sy_holder y = None /\ Forall (fun e => snd (snd e) = Ok tt) (sy_hist y) /\
     map fst (sy_hist y) = [0; 1; 0] /\
     test_consumer_consumed (sy_shared y) = Ret [x01; x02; x03; x04]) /\
  (* in the middle of the first integer *)
  (exists y, careful ex_int_sem ex_int_start (firstn 8 ex_int_schedule) y /\
     sy_holder y = Some 0 /\ test_consumer_consumed (sy_shared y) = Ret [x01]).
Proof.
  split; (apply run_polls; [repeat constructor|]); vm_compute; repeat constructor.
Qed.

(** Two tasks take 16-bit integers from a producer that is [Pending] every other time. *)
Definition ex_dec_start : system (test_producer_state byte nat nat) (bpans (num (wrapped U16BE)) nat (decode_error nat nat infallible)) unit (dcall unit) :=
  system_new (test_producer_build [x01; x02; x03; x04] (@Ok nat nat 5) (Some [1]) (Some [false; true])) [(tt, [DProduce]); (tt, [DProduce])].
Definition ex_dec_sem := a_shared_relative_decoder (RT := unit) (fun _ => a_endian_decode U16BE) (@a_test_producer byte nat nat).
Example C81_values_example :
  exists y, careful ex_dec_sem ex_dec_start (concat (repeat [Poll 0; Poll 1] 20)) y /\
     Forall (fun e => answer_continues (snd (snd e))) (sy_hist y) /\
     map (fun e => match snd (snd e) with BPItem (Ok (inl v)) => Some (num_val v) | _ => None end) (sy_hist y) = [Some 258%Z; Some 772%Z].
Proof. apply run_polls; [repeat constructor|]. vm_compute. repeat constructor. Qed.

Example C81_served_example :
  exists f y t l c s' x, sys_step ex_int_sem (Poll 0) ex_int_start = Ret y /\ nth_error (sy_tasks y) 0 = Some t /\ tk_now t = Waiting l c (fut_prog f) /\ sy_holder y = None /\
    run f (sy_shared y) = Ret (s', x) /\ pendings f (sy_shared y) = 3.
Proof.
  exists (a_endian_encode U16BE (a_test_consumer x00) (num_of u16 258)). do 6 eexists.
  do 4 (split; [reflexivity|]). split; vm_compute; reflexivity.
Qed.

(** A decoder that is used by two tasks, one of which slurps. *)
Example C81_same_example :
  exists y, careful (a_shared_decoder (a_endian_decode U16BE) (@a_test_producer byte nat nat))
      (system_new (test_producer_build [x01; x02] (@Err nat nat 5) (Some [1]) (Some [false; true])) [(tt, [DProduce]); (tt, [DSlurp])])
      (concat (repeat [Poll 0; Poll 1] 20)) y /\
    map (fun e => (fst e, snd (fst (snd e)), match snd (snd e) with BPUnit (Ok tt) => Some 0 | BPUnit (Err (Producer e)) => Some e | _ => None end)) (sy_hist y) =
      [(0, DProduce, None); (1, DSlurp, Some 5)].
Proof. apply run_polls; [repeat constructor|]. vm_compute. reflexivity. Qed.

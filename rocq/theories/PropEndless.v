(** Property C107: producers that never end. *)
From Coq Require Import Bool List Arith Lia ZArith.
From Coq.Init Require Import Byte.
From Verif Require Import Prelude ListFacts QueueModel QueueSpec QueueProofs Traits Contracts ContractFacts BasicModel BasicSpec BasicProofs AdaptorModel AdaptorSpec
  IoModel IoSpec ScramblerModel ScramblerProofs CodecModel EndianModel EndianSpec EndianProofs EndlessSpec EndlessProofs EndlessIoProofs.
Import ListNotations.

(** The contract as a relation between states and positions says the same as the contract for every sequence of calls. *)
Theorem C107_contract :
  forall (S T F E : Type) (P : bulk_producer S T F E) g s i, goes_on P g s i <-> forall ops, e_conforms P g ops s i 0.
Proof. intros S T F E P g s i. exact (goes_on_iff s i). Qed.
Print Assumptions C107_contract.

(** Limit makes a producer of the first [n] items, that ends as all others do. *)
Theorem C107_limit :
  forall (S T F E : Type) (P : bulk_producer S T F E) g s i, goes_on P g s i ->
  forall n ops, p_conforms (limit_producer P) ops (limit_new s n) (PActive (stretch g i n) (Ok None) 0).
Proof. intros S T F E P g s i (R & L & HR) n ops. eapply elim_conforms; [exact L|exact HR]. Qed.
Print Assumptions C107_limit.

(** After any calls the inner producer is just behind the items that were taken, and goes on from there. *)
Theorem C107_limit_leaves_the_rest :
  forall (S T F E : Type) (P : bulk_producer S T F E) g s i, goes_on P g s i ->
  forall n h s' a', p_history (limit_producer P) (limit_new s n) (PActive (stretch g i n) (Ok None) 0) h s' a' ->
  exists j, j <= n /\ p_emitted [] h = stretch g i j /\ goes_on P g (lim_inner s') (i + j) /\
    match a' with
    | PActive ys _ _ => lim_remaining s' = n - j /\ p_last h = None
    | PEnded => j = n /\ p_last h = Some (Ok None)
    end.
Proof.
  intros S T F E P g s i (R & L & HR) n h s' a' HH. edestruct (elim_rest (P := P) (g := g) (R := R)) as (j & k' & Hj & E1 & HR' & H1); [exact L|exact HR|exact HH|].
  exists j. splits; auto. exists R. split; [exact L|exact (en_forget L HR')].
Qed.
Print Assumptions C107_limit_leaves_the_rest.

(** Adaptors that let all items through. *)
Theorem C107_adaptors :
  forall (S T F E : Type) (P : bulk_producer S T F E) g s i, goes_on P g s i ->
  (forall B (f : F -> B), goes_on (map_final_producer P) g (with_fun_new s f) i) /\
  goes_on (invariant_producer P) g (invariant_new s) i /\
  goes_on (invariant_noop_producer P) g s i.
Proof.
  intros S T F E P g s i (R & L & HR). splits.
  - intros B f. exists (fun s => R (wf_inner s)). split; [exact (map_final_endless L B)|exact HR].
  - exists (einv_rel (R := R)). split; [exact (invariant_endless L)|]. exists 0. cbn. auto.
  - exists R. split; [exact (noop_endless L)|exact HR].
Qed.
Print Assumptions C107_adaptors.

(** Scramblers, with every pattern of operations: the buffer delays items, but none is lost and none waits for ever. *)
Theorem C107_scrambler :
  forall (S T F E : Type) (P : bulk_producer S T F E) g s i, goes_on P g s i ->
  forall dbg x0 pat cap fuel, 1 <= cap -> Forall pscr_op_ok pat -> Datatypes.S cap * Datatypes.S (length pat) <= fuel ->
  goes_on (pscr_producer dbg fuel P) g (pscr_new_with_capacity x0 s pat cap) i.
Proof. intros S T F E P g s i (R & L & HR) dbg x0 pat cap fuel Hc Hp Hf. eapply escr_new; [exact L|exact Hc|exact HR|exact Hp|exact Hf]. Qed.
Print Assumptions C107_scrambler.

(** MapItem: the closure is called once per item, in order. *)
Theorem C107_map_item :
  forall (S T F E : Type) (P : bulk_producer S T F E) g s, goes_on P g s 0 ->
  forall U W (f : W -> T -> W * U) w, yields_for_ever (map_item_producer P f) (mapped_at f w g) (mk_map_item s w).
Proof.
  intros S T F E P g s (R & L & HR) U W f w. exists (fun s j => exists k, R (mi_inner s) j k /\ mi_closure s = closure_at f w g j). split.
  - exists 0. auto.
  - intros s1 j (k & HR1 & Hc). edestruct (map_item_endless L f w s1 j k) as [(s2 & E2 & H2 & H3) (s4 & E4 & H4 & H5)]; [exact HR1|exact Hc|]. split; eauto 8.
Qed.
Print Assumptions C107_map_item.

(** Readers that never report the end of the file. *)
Theorem C107_buf_reader :
  forall (S T : Type) (Rd : buf_reader S T) g R, endless_buf_reader Rd g R -> forall x0 s i k, R s i k -> goes_on (buf_reader_producer Rd x0) g s i.
Proof. intros S T Rd g R L x0 s i k HR. exists R. split; [now apply br_endless|]. eapply (eb_weaken L); [exact HR|lia]. Qed.
Print Assumptions C107_buf_reader.

Theorem C107_reader :
  forall (S Q T : Type) (Rd : reader S T) (I : queue Q T) c g R RQ, endless_reader Rd g R -> lawful_queue I c RQ -> 1 <= c ->
  forall x0 s q i, R s i -> RQ q [] 0 [] -> goes_on (reader_producer Rd I x0) g (mk_reader_state s q) i.
Proof.
  intros S Q T Rd I c g R RQ L LQ Hc x0 s q i HR HQ. exists (erd_R g R RQ). split; [now apply (@rd_endless _ _ _ _ _ x0 c)|].
  exists 0. cbn. rewrite Nat.add_0_r. auto.
Qed.
Print Assumptions C107_reader.

(** The provided methods that fill a slice. *)
Theorem C107_slices :
  forall (S T F E : Type) (P : bulk_producer S T F E) g s i, goes_on P g s i ->
  (exists s', produce_item P s = Ret (s', Ok (g i)) /\ goes_on P g s' (Datatypes.S i)) /\
  (forall buf, exists s', overwrite_full_slice P buf s = Ret (s', (stretch g i (length buf), Ok tt)) /\ goes_on P g s' (i + length buf)) /\
  (forall fuel buf, length buf < fuel ->
    exists s', bulk_overwrite_full_slice fuel P buf s = Ret (s', (stretch g i (length buf), Ok tt)) /\ goes_on P g s' (i + length buf)).
Proof.
  intros S T F E P g s i (R & L & HR). splits.
  - edestruct (produce_item_endless L) as (s' & E1 & H1); [exact HR|]. exists s'. split; [exact E1|now exists R].
  - intros buf. edestruct (overwrite_endless L) as (s' & E1 & H1); [exact HR|]. exists s'. split; [exact E1|now exists R].
  - intros fuel buf Hf. edestruct (bulk_overwrite_endless L) as (s' & E1 & H1); [exact HR|exact Hf|]. exists s'. split; [exact E1|now exists R].
Qed.
Print Assumptions C107_slices.

(** pipe and bulk_pipe do not return if the consumer takes everything. *)
Theorem C107_pipe_for_ever :
  forall (SP SC A T F PE CE : Type) (P : bulk_producer SP T F PE) (C : bulk_consumer SC T F CE) (M : machine A T F CE) g RC DC,
  lawful_consumer C M RC DC -> forall sp sc a i, goes_on P g sp i -> RC sc a 0 [] -> (forall n, exists a', takes M g a i n a') ->
  forall fuel, pipe fuel P C sp sc = NoFuel /\ bulk_pipe fuel P C sp sc = NoFuel.
Proof.
  intros SP SC A T F PE CE P C M g RC DC LC sp sc a i (R & L & HR) HC HT fuel. split.
  - eapply pipe_for_ever; [exact L|exact LC|exact HR|exact HC|exact HT].
  - eapply bulk_pipe_for_ever; [exact L|exact LC|exact HR|exact HC|exact HT].
Qed.
Print Assumptions C107_pipe_for_ever.

(** If it fails, they return its error. [pipe] has taken the item from the producer that the consumer did not take; [bulk_pipe] has not,
    but it has not told the producer of the last items that were taken. The producer can still be used. *)
Theorem C107_pipe_fails :
  forall (SP SC A T F PE CE : Type) (P : bulk_producer SP T F PE) (C : bulk_consumer SC T F CE) (M : machine A T F CE) g RC DC,
  lawful_consumer C M RC DC -> forall sp sc a i m a' n e, goes_on P g sp i -> RC sc a 0 [] -> m_feed M (stretch g i m) a = (a', n, Some e) ->
  forall fuel, n < fuel ->
  (exists sp' sc', pipe fuel P C sp sc = Ret (sp', sc', Err (PipeConsumer e)) /\ goes_on P g sp' (i + Datatypes.S n) /\ DC sc' a') /\
  (exists sp' sc' j, bulk_pipe fuel P C sp sc = Ret (sp', sc', Err (PipeConsumer e)) /\ j <= n /\ goes_on P g sp' (i + j) /\ DC sc' a').
Proof.
  intros SP SC A T F PE CE P C M g RC DC LC sp sc a i m a' n e (R & L & HR) HC HM fuel Hf. split.
  - edestruct (pipe_refused L LC) as (sp' & sc' & E1 & H1 & H2); [exact HR|exact HC|exact HM|exact Hf|]. exists sp', sc'. splits; auto. now exists R.
  - edestruct (bulk_pipe_refused L LC) as (sp' & sc' & j & E1 & Hj & H1 & H2); [exact HR|exact HC|exact HM|exact Hf|]. exists sp', sc', j. splits; auto. now exists R.
Qed.
Print Assumptions C107_pipe_fails.

(** The versions with a bound return in any case. *)
Theorem C107_pipe_at_most :
  forall (SP SC A T F PE CE : Type) (P : bulk_producer SP T F PE) (C : bulk_consumer SC T F CE) (M : machine A T F CE) g RC DC,
  lawful_consumer C M RC DC -> forall sp sc a i, goes_on P g sp i -> RC sc a 0 [] ->
  forall count fuel, count < fuel ->
  match m_feed M (stretch g i count) a with
  | (a', _, None) =>
      (exists sp' sc', pipe_at_most P C count sp sc = Ret (sp', sc', Ok count) /\ goes_on P g sp' (i + count) /\ RC sc' a' 0 []) /\
      (exists sp' sc', bulk_pipe_at_most fuel P C count sp sc = Ret (sp', sc', Ok count) /\ goes_on P g sp' (i + count) /\ RC sc' a' 0 [])
  | (a', n, Some e) =>
      (exists sp' sc', pipe_at_most P C count sp sc = Ret (sp', sc', Err (PipeConsumer e)) /\ goes_on P g sp' (i + Datatypes.S n) /\ DC sc' a') /\
      (exists sp' sc' j, bulk_pipe_at_most fuel P C count sp sc = Ret (sp', sc', Err (PipeConsumer e)) /\ j <= n /\ goes_on P g sp' (i + j) /\ DC sc' a')
  end.
Proof.
  intros SP SC A T F PE CE P C M g RC DC LC sp sc a i (R & L & HR) HC count fuel Hf.
  pose proof (pipe_at_most_endless L LC count sp sc a i 0 0 [] HR HC) as H1. pose proof (@bulk_pipe_at_most_endless _ _ _ _ _ _ _ _ _ _ _ _ _ _ L LC fuel count sp sc a i 0 0 [] HR HC Hf) as H2.
  destruct (m_feed M (stretch g i count) a) as [[a' n] [e|]].
  - destruct H1 as (sp1 & sc1 & E1 & H1 & D1), H2 as (sp2 & sc2 & j & E2 & Hj & H2 & D2). split; [exists sp1, sc1|exists sp2, sc2, j]; splits; auto; now exists R.
  - destruct H1 as (sp1 & sc1 & E1 & H1 & D1), H2 as (sp2 & sc2 & E2 & H2 & D2). split; [exists sp1, sc1|exists sp2, sc2]; splits; auto; now exists R.
Qed.
Print Assumptions C107_pipe_at_most.

(** Numbers from bytes: the Decoder never ends either. *)
Theorem C107_decoder :
  forall (S F E : Type) (P : bulk_producer S byte F E) g s, goes_on P g s 0 ->
  forall w (v : nat -> num (wrapped w)), (forall j, encodes w (v j) (stretch g (j * width w) (width w))) ->
  yields_for_ever (decoder (endian_decode w) P) v s /\ yields_for_ever (decoder (endian_decode_canonic w) P) v s.
Proof.
  intros S F E P g s (R & L & HR) w v V.
  assert (H : yields_for_ever (decoder (endian_decode w) P) v s); [|split; exact H].
  exists (fun s j => exists k, R s (j * width w) k). split; [now exists 0|]. intros s1 j (k & HR1). split.
  - edestruct (@decoder_endless S F E P g R) as (s2 & E2 & H2); [exact L|exact V|exact HR1|]. eauto.
  - edestruct (@decoder_slurp_endless S F E P g R) as (s2 & E2 & H2); [exact L|exact HR1|]. eauto.
Qed.
Print Assumptions C107_decoder.

(** *** Examples *)
(** Counts from 0 on; three items at a time are shown. *)
Definition counting : bulk_producer nat nat unit nat :=
  let expose i := Ret (i, Ok (inl (stretch (fun x => x) i 3))) in
  let consider n i := Ret (i + n, Ok tt) in
  mk_bulk_producer (mk_buffered_producer (mk_producer (fun i => Ret (Datatypes.S i, Ok (inl i)))) (fun i => Ret (i, Ok tt)))
    expose consider (default_bulk_produce expose consider).

Lemma counting_goes_on : forall i, goes_on counting (fun x => x) i i.
Proof.
  intros i. exists (fun s j k => s = j). split; [|reflexivity]. apply default_endless; [|reflexivity]. constructor; try (intros; subst; eexists; split; reflexivity).
  - intros s j k ->. exists j, 3. splits; [reflexivity|lia|reflexivity].
Qed.

(** The bytes 0, 1, 0, 1, ... from a source that gives two at a time. *)
Definition wheel (i : nat) : byte := if Nat.even i then x00 else x01.
Definition turning : reader nat byte :=
  mk_reader (fun buf i => let n := Nat.min 2 (length buf) in Ret (i + n, (stretch wheel i n ++ skipn n buf, Ok n))).

Lemma turning_endless : endless_reader turning wheel (fun s i => s = i).
Proof.
  intros s i buf -> Hb. assert (1 <= length buf) by (destruct buf; [congruence|cbn; lia]).
  exists (i + Nat.min 2 (length buf)), (Nat.min 2 (length buf)). splits; auto; lia.
Qed.

Definition as_producer := reader_producer turning (fixed_queue byte) x00.
Example C107_example_reader : goes_on as_producer wheel (mk_reader_state 0 (fixed_new x00 4)) 0.
Proof. eapply C107_reader; [exact turning_endless|exact (fixed_lawful 4)|lia|reflexivity|apply fixed_new_R; lia]. Qed.

(** The first calls: the contract leaves open how many items come at once. *)
Example C107_example_calls :
  p_do as_producer PExpose (mk_reader_state 0 (fixed_new x00 4)) =
    Ret (mk_reader_state 2 (mk_fixed [x00; x01; x00; x00] 0 2), PASlice (Ok (inl [x00; x01]))) /\
  e_conforms as_producer wheel [PExpose; PConsider 1; PProduce; PSlurp; PBulkProduce [x00; x00; x00]] (mk_reader_state 0 (fixed_new x00 4)) 0 0.
Proof. split; [reflexivity|]. now apply C107_contract, C107_example_reader. Qed.

(** Limit, MapFinal, Invariant and a scrambler on top of each other. *)
Example C107_example_tower :
  let s := pscr_new_with_capacity 0 (invariant_new (with_fun_new 5 (fun f : unit => [f]))) [ScConsiderProduced 2; ScSlurp] 3 in
  p_conforms (limit_producer (pscr_producer true 12 (invariant_producer (map_final_producer counting))))
    [PSlurp; PProduce; PExpose; PConsider 2; PBulkProduce [0; 0]; PProduce] (limit_new s 4) (PActive [5; 6; 7; 8] (Ok None) 0).
Proof.
  apply (C107_limit _ _ _ _ _ (fun x => x) _ 5). apply C107_scrambler; [|lia| |cbn; lia].
  - apply C107_adaptors, C107_adaptors, counting_goes_on.
  - repeat constructor.
Qed.

(** Running sums. *)
Example C107_example_map_item :
  let P := map_item_producer counting (fun w x => (w + x, w + x)) in
  yields_for_ever P (mapped_at (fun w x => (w + x, w + x)) 0 (fun x => x)) (mk_map_item 0 0) /\
  map (mapped_at (fun w x => (w + x, w + x)) 0 (fun x => x)) [0; 1; 2; 3; 4] = [0; 1; 3; 6; 10].
Proof. split; [apply C107_map_item, counting_goes_on|reflexivity]. Qed.

(** A consumer that collects takes everything; one that fails after 4 items does not. *)
Definition endless_taker : bulk_consumer (into_vec nat) nat unit infallible := into_vec_consumer 0.
Example C107_example_for_ever : forall fuel, pipe fuel counting endless_taker 2 (into_vec_from_vec []) = NoFuel /\ bulk_pipe fuel counting endless_taker 2 (into_vec_from_vec []) = NoFuel.
Proof.
  eapply C107_pipe_for_ever; [exact (into_vec_lawful 0)|exact (counting_goes_on 2)|exact (iv_rel_from_vec [])|].
  assert (H : forall n i log, exists log', takes (collect_machine nat unit infallible) (fun x => x) log i n log').
  { unfold takes. induction n as [|n IH]; intros i log; [now exists log|]. rewrite stretch_S. cbn [m_feed collect_machine m_step].
    destruct (IH (S i) (log ++ [i])) as [log' ->]. now exists log'. }
  intros n. exact (H n 2 []).
Qed.

Definition four_items : test_consumer_state nat unit nat := test_consumer_build 99 4 None None.
Example C107_example_fails :
  match bulk_pipe 5 counting (test_consumer 0) 2 four_items with
  | Ret (sp', sc', Err (PipeConsumer e)) => sp' = 6 /\ e = 99 /\ test_consumer_consumed sc' = Ret [2; 3; 4; 5]
  | _ => False
  end.
Proof. vm_compute. auto. Qed.

Example C107_example_fails_hypotheses :
  m_feed (failing_machine nat unit 99) (stretch (fun x => x) 2 9) (mk_tstate [] None 4 false) = (mk_tstate [2; 3; 4; 5] None 0 true, 4, Some 99) /\
  tc_rel 99 four_items (mk_tstate [] None 4 false) 0 [].
Proof. split; [reflexivity|]. now apply (tc_rel_build (T := nat) 99 4 None None). Qed.

Example C107_example_at_most :
  pipe_at_most counting (test_consumer 0) 3 2 four_items <> NoFuel /\
  m_feed (failing_machine nat unit 99) (stretch (fun x => x) 2 3) (mk_tstate [] None 4 false) = (mk_tstate [2; 3; 4] None 1 false, 3, None).
Proof. split; [vm_compute; discriminate|reflexivity]. Qed.

(** Slices. *)
Example C107_example_slices : bulk_overwrite_full_slice 6 counting [0; 0; 0; 0; 0] 7 = Ret (12, ([7; 8; 9; 10; 11], Ok tt)).
Proof. reflexivity. Qed.

(** The bytes 1, 2, 1, 2, ... as numbers of two bytes. *)
Definition one_two : bulk_producer nat byte unit nat :=
  let g i := if Nat.even i then x01 else x02 in
  let expose i := Ret (i, Ok (inl (stretch g i 3))) in
  let consider n i := Ret (i + n, Ok tt) in
  mk_bulk_producer (mk_buffered_producer (mk_producer (fun i => Ret (Datatypes.S i, Ok (inl (g i))))) (fun i => Ret (i, Ok tt)))
    expose consider (default_bulk_produce expose consider).

Example C107_example_decoder : yields_for_ever (decoder (endian_decode U16BE) one_two) (fun _ => num_of u16 258%Z) 0.
Proof.
  eapply C107_decoder with (g := fun i => if Nat.even i then x01 else x02).
  - exists (fun s j k => s = j). split; [|reflexivity]. apply default_endless; [|reflexivity]. constructor; try (intros; subst; eexists; split; reflexivity).
    + intros s j k ->. exists j, 3. splits; [reflexivity|lia|reflexivity].
  - intros j. unfold stretch. replace (width U16BE) with 2 by reflexivity. cbn [seq map].
    replace (Nat.even (j * 2)) with true by (symmetry; apply Nat.even_spec; exists j; lia).
    replace (Nat.even (Datatypes.S (j * 2))) with false.
    + reflexivity.
    + symmetry. rewrite Nat.even_succ, <- Nat.negb_even. apply negb_false_iff. apply Nat.even_spec. exists j. lia.
Qed.

(** C78: [TestProducer] and [TestConsumer] with machine words throughout. *)
From Coq Require Import Bool List Arith Lia.
From Verif Require Import Prelude ListFacts Traits Contracts ContractFacts BasicModel BasicSpec BasicProofs WordModel WordProofs
  WordBasicModel WordBasicSpec WordBasicProofs WordTestModel WordTestProofs.
Import ListNotations.

(** As long as the items, the sizes and the pattern (with one more entry) have lengths that are words, the words change nothing in
    any permitted history of a [TestProducer] ... *)
Theorem C78_test_producer : forall W checked T F E (items : list T) (last : res F E) sizes pattern h s a, length items < W ->
  match sizes with Some l => Forall (fun n => 1 <= n) l /\ length l < W | None => True end ->
  match pattern with Some p => length p + 1 < W | None => True end ->
  p_history (word_test_producer W checked) (test_producer_build items last sizes pattern) (PActive items last 0) h s a <->
  p_history test_producer (test_producer_build items last sizes pattern) (PActive items last 0) h s a.
Proof.
  intros W checked T F E items last sizes pattern h s a H1 H2 H3.
  apply (@p_agree _ _ _ _ _ _ (@tpw W T F E)); [exact (@tpw_do W checked T F E)|exact (@tpw_step W checked T F E)|now apply tpw_build].
Qed.

(** ... and every sequence of calls conforms, in both builds. *)
Theorem C78_test_producer_conforms : forall W checked T F E (items : list T) (last : res F E) sizes pattern ops, length items < W ->
  match sizes with Some l => Forall (fun n => 1 <= n) l /\ length l < W | None => True end ->
  match pattern with Some p => length p + 1 < W | None => True end ->
  p_conforms (word_test_producer W checked) ops (test_producer_build items last sizes pattern) (PActive items last 0).
Proof.
  intros W checked T F E items last sizes pattern ops H1 H2 H3.
  apply (@p_agree_conforms _ _ _ _ test_producer _ (@tpw W T F E)); [exact (@tpw_do W checked T F E)|exact (@tpw_step W checked T F E)|now apply tpw_build|].
  apply (lawful_p_conforms ops (s := test_producer_build items last sizes pattern) (a := PActive items last 0) test_producer_lawful).
  - left. apply test_producer_slurp_lawful.
  - apply tp_rel_build. destruct sizes; [apply H2|exact I].
Qed.

(** A [TestConsumer] makes room for 2048 items at a time, and doubles its vector to do so. As long as twice the number of
    collected items and of these is not more than a vector can hold plus one, the words change nothing ... *)
Theorem C78_test_consumer : forall W checked T F E (d : T) (error : E) max_len n sizes pattern h s a, max_len < W ->
  match sizes with Some l => Forall (fun n => 1 <= n) l /\ length l < W | None => True end ->
  match pattern with Some p => length p + 1 < W | None => True end ->
  2 * (length (t_log (t_of a)) + 2048) <= max_len + 1 ->
  c_history (word_consumer W checked d max_len) (failing_machine T F error) (test_consumer_build error n sizes pattern)
    (CActive (mk_tstate [] None n false) 0 []) h s a <->
  c_history (test_consumer d) (failing_machine T F error) (test_consumer_build error n sizes pattern)
    (CActive (mk_tstate [] None n false) 0 []) h s a.
Proof.
  intros W checked T F E d error max_len n sizes pattern h s a HW H1 H2 H3.
  apply word_consumer_history; [exact HW|now apply tcx_build|exact H3].
Qed.

(** ... and every further permitted call returns, with a permitted answer. [n] may be as large as [usize::MAX]. *)
Theorem C78_test_consumer_step : forall W checked T F E (d : T) (error : E) max_len n sizes pattern h s a o, max_len < W ->
  match sizes with Some l => Forall (fun n => 1 <= n) l /\ length l < W | None => True end ->
  match pattern with Some p => length p + 1 < W | None => True end ->
  c_history (word_consumer W checked d max_len) (failing_machine T F error) (test_consumer_build error n sizes pattern)
    (CActive (mk_tstate [] None n false) 0 []) h s a ->
  2 * (length (t_log (t_of a)) + 2048) <= max_len + 1 -> c_permitted a o ->
  exists s' r a', c_do (word_consumer W checked d max_len) o s = Ret (s', r) /\ c_answer (failing_machine T F error) a o r a'.
Proof.
  intros W checked T F E d error max_len n sizes pattern h s a o HW H1 H2 HH H3 HP.
  eapply word_consumer_next; [exact HW|exact HH|now apply tcx_build|exact H3|exact HP].
Qed.

(** Non-vacuity. *)
Definition word_tp_example : test_producer_state nat unit nat :=
  test_producer_build [4; 5; 6] (Err 9) (Some [2; 1]) (Some [true]).

Example C78_example_producer : forall checked, exists s,
  p_history (word_test_producer 8 checked) word_tp_example (PActive [4; 5; 6] (Err 9) 0)
    [(PExpose, PASlice (Ok (inl [4; 5]))); (PConsider 2, PAUnit (Ok tt)); (PExpose, PASlice (Ok (inl [6]))); (PConsider 1, PAUnit (Ok tt));
     (PProduce, PAItem (Err 9))] s PEnded.
Proof. intros [|]; eexists; run_p. Qed.

Example C78_example_producer_meets : length [4; 5; 6] < 8 /\ (Forall (fun n => 1 <= n) [2; 1] /\ length [2; 1] < 8) /\ length [true] + 1 < 8.
Proof. repeat split; cbn; auto; repeat constructor. Qed.

(** The length of the pattern has to be a word: with [W = 2], the index of a pattern with two entries cannot be advanced. *)
Example C78_example_small_word : forall y,
  word_yielder_await 2 true 2 (mk_yielder [true; false] 0) <> Ret y /\
  word_yielder_await 3 true 2 (mk_yielder [true; false] 0) = Ret (mk_yielder [true; false] 0).
Proof. intros y. split; [discriminate|reflexivity]. Qed.

Definition word_tc_example : test_consumer_state nat unit nat :=
  test_consumer_build 9 3 (Some [2; 1]) (Some [true; false]).

Example C78_example_consumer : forall checked, exists s, 2 * (length [4; 5; 6] + 2048) <= 4101 + 1 /\
  c_history (word_consumer 5000 checked 0 4101) (failing_machine nat unit 9) word_tc_example (CActive (mk_tstate [] None 3 false) 0 [])
    [(CExpose, CASlots (Ok 2)); (CWrite [4; 5], CANone); (CConsumeSlots 2, CAUnit (Ok tt)); (CConsume 6, CAUnit (Ok tt)); (CConsume 7, CAUnit (Err 9))]
    s (CEnded (mk_tstate [4; 5; 6] None 0 true)).
Proof. intros [|]; eexists; (split; [apply Nat.leb_le; vm_compute; reflexivity|]); run_c. Qed.

(** The bound is met exactly: a new [TestConsumer] needs a vector of 4095 items before it exposes any slots. *)
Example C78_example_bound : forall checked,
  word_consumer_expose 5000 checked 0 4094 (test_consumer_build 9 3 None None : test_consumer_state nat unit nat) = Panic /\
  (exists s, word_consumer_expose 5000 checked 0 4095 (test_consumer_build 9 3 None None : test_consumer_state nat unit nat) = Ret (s, Ok 3)) /\
  2 * (0 + 2048) <= 4095 + 1 /\ ~ 2 * (0 + 2048) <= 4094 + 1.
Proof.
  assert (H : 2 * (0 + 2048) <= 4095 + 1 /\ ~ 2 * (0 + 2048) <= 4094 + 1).
  { split; [apply Nat.leb_le; vm_compute; reflexivity|]. apply Nat.leb_nle. vm_compute. reflexivity. }
  intros [|]; (split; [vm_compute; reflexivity|]); (split; [eexists; vm_compute; reflexivity|exact H]).
Qed.

Print Assumptions C78_test_producer.
Print Assumptions C78_test_producer_conforms.
Print Assumptions C78_test_consumer.
Print Assumptions C78_test_consumer_step.

(** Properties C59-C64: the fuzz targets. For each target: the modelled code passes it on every input, and (where the
    target says something that the other theorems do not) what exactly passing means, for arbitrary code in place of the
    code under test. *)
From Coq Require Import Bool List Arith Lia.
From Verif Require Import Prelude ListFacts QueueModel QueueSpec QueueProofs Traits Contracts BasicModel BasicSpec AdaptorModel
  ScramblerModel MergeModel MergeSpec PropQueues FuzzModel FuzzSpec FuzzProofs FuzzScramblerProofs FuzzMergeProofs
  FuzzMeansProofs.
Import ListNotations.
Set Warnings "-abstract-large-number".

(** *** C59. The four queue targets. *)

Theorem C59_fixed_passes : forall operations capacity, fuzz_fixed operations capacity = Ret tt.
Proof.
  intros operations capacity. unfold fuzz_fixed. destruct ((1 <=? capacity) && (capacity <=? 2048)) eqn:H; [|reflexivity].
  apply andb_true_iff in H. destruct H as [H _]. apply Nat.leb_le in H.
  exact (conforming_queue_passes _ (C01_fixed_is_bounded_fifo nat capacity (fun _ => 0) _ H)).
Qed.
Print Assumptions C59_fixed_passes.

Theorem C59_static_passes : forall operations, fuzz_static operations = Ret tt.
Proof.
  intros operations. unfold fuzz_static.
  refine (conforming_queue_passes _ (C02_static_is_bounded_fifo nat 42 (fun _ => 0) _ _)). lia.
Qed.
Print Assumptions C59_static_passes.

(** For any queue: the target passes if and only if no call panics and the answers are those of a list. *)
Theorem C59_queue_target_means :
  forall Q (I : queue Q nat) capacity operations q stored,
  fuzz_queue_loop I capacity operations q stored = Ret tt <->
  exists q' rs, q_run I (map fop_call (filter fop_called operations)) q = Ret (q', rs) /\
    fifo_sees capacity stored (filter fop_called operations) rs.
Proof. intros. apply fuzz_queue_loop_iff. Qed.
Print Assumptions C59_queue_target_means.

(** The operations of the first example get past the check of the capacity and wrap around. *)
Example C59_example :
  fuzz_fixed [FEnqueue 1; FEnqueue 2; FDequeue; FBulkEnqueue [3; 4; 5]; FBulkDequeue 7; FDequeue] 3 = Ret tt.
Proof. apply C59_fixed_passes. Qed.

Example C59_example_answers :
  exists q', q_run (fixed_queue nat) (map fop_call [FEnqueue 1; FEnqueue 2; FDequeue; FBulkEnqueue [3; 4; 5]; FBulkDequeue 2; FDequeue])
    (fixed_new 0 3) = Ret (q', [AItem None; AItem None; AItem (Some 1); ANat 1; ABuf [2; 3] 2; AItem None]).
Proof. eexists. vm_compute. reflexivity. Qed.

(** A stack, and a queue with one slot too few, are caught. *)
Definition stack_queue : queue (list nat) nat := {|
  q_len := @length nat;
  q_enqueue x q := Ret (x :: q, None);
  q_expose_slots q := Ret (q, None);
  q_write _ q := q;
  q_consider_enqueued _ q := Ret q;
  q_dequeue q := Ret (tl q, hd_error q);
  q_expose_items q := Ret (q, None);
  q_consider_dequeued _ q := Ret q |}.
Example C59_example_stack :
  fuzz_queue_loop stack_queue 3 [FEnqueue 1; FEnqueue 2; FDequeue] [] [] = Panic.
Proof. reflexivity. Qed.
Example C59_example_small :
  fuzz_queue_loop (fixed_queue nat) 3 [FEnqueue 1; FEnqueue 2; FEnqueue 3] (fixed_new 0 2) [] = Panic.
Proof. reflexivity. Qed.

(** *** C60. The targets of the functions for whole slices and of the bulk methods. The inputs are what the [Arbitrary]
    instances build: [NonZeroUsize] makes the sizes positive. *)

Theorem C60_consume_full_slice_passes :
  forall err until sizes pattern items, Forall (fun n => 1 <= n) sizes ->
  fuzz_consume_full_slice (consume_full_slice (test_consumer 0)) (arbitrary_con err until sizes pattern) items = Ret tt /\
  forall fuel, length items < fuel ->
  fuzz_bulk_consume_full_slice (bulk_consume_full_slice fuel (test_consumer 0)) (consume_full_slice (test_consumer 0))
    (arbitrary_con err until sizes pattern) items = Ret tt.
Proof.
  intros err until sizes pattern items H. split; [apply consume_full_slice_passes; exact H|].
  intros fuel Hf. apply bulk_consume_full_slice_passes; assumption.
Qed.
Print Assumptions C60_consume_full_slice_passes.

Theorem C60_overwrite_full_slice_passes :
  forall items last sizes pattern len, Forall (fun n => 1 <= n) sizes ->
  fuzz_overwrite_full_slice (overwrite_full_slice test_producer) (arbitrary_pro items last sizes pattern) len = Ret tt /\
  forall fuel, len < fuel ->
  fuzz_bulk_overwrite_full_slice (bulk_overwrite_full_slice fuel test_producer) (overwrite_full_slice test_producer)
    (arbitrary_pro items last sizes pattern) len = Ret tt.
Proof.
  intros items last sizes pattern len H. split; [apply overwrite_full_slice_passes; exact H|].
  intros fuel Hf. apply bulk_overwrite_full_slice_passes; assumption.
Qed.
Print Assumptions C60_overwrite_full_slice_passes.

Theorem C60_bulk_consume_passes :
  forall err until sizes pattern items slice_lengths, Forall (fun n => 1 <= n) sizes ->
  fuzz_bulk_consume (test_consumer 0) (arbitrary_con err until sizes pattern) items slice_lengths = Ret tt.
Proof. intros. now apply bulk_consume_passes. Qed.
Print Assumptions C60_bulk_consume_passes.

(** The target for [bulk_produce] never calls [bulk_produce] when no items remain: it passes whatever happens then. *)
Theorem C60_bulk_produce_passes :
  forall items last sizes pattern slice_lengths (P : bulk_producer tpro nat nat nat), Forall (fun n => 1 <= n) sizes ->
  p_produce P = p_produce test_producer ->
  (forall buf s, test_producer_remaining s <> Ret [] -> p_bulk_produce P buf s = p_bulk_produce test_producer buf s) ->
  fuzz_bulk_produce P (arbitrary_pro items last sizes pattern) slice_lengths = Ret tt.
Proof.
  intros items last sizes pattern slice_lengths P H H1 H2. eapply bulk_produce_passes; eauto.
  intros buf s x xs k HR. apply H2.
  destruct (@tpi_read _ _ _ items s (PActive (x :: xs) last k) HR) as (_ & -> & _). discriminate.
Qed.
Print Assumptions C60_bulk_produce_passes.

(** What passing means. *)
Theorem C60_consume_target_means :
  forall f con items, fuzz_consume_full_slice f con items = Ret tt <->
  exists err con' r, tc_error con = Some err /\ f items con = Ret (con', r) /\ full_slice_report items err con' r.
Proof. exact fuzz_consume_full_slice_iff. Qed.
Print Assumptions C60_consume_target_means.

Theorem C60_bulk_consume_target_means :
  forall f g con items, fuzz_bulk_consume_full_slice f g con items = Ret tt <->
  exists con1 con2 r, f items con = Ret (con1, r) /\ g items con = Ret (con2, r) /\ same_con con1 con2.
Proof. exact fuzz_bulk_consume_full_slice_iff. Qed.
Print Assumptions C60_bulk_consume_target_means.

Theorem C60_overwrite_target_means :
  forall f pro len, fuzz_overwrite_full_slice f pro len = Ret tt <->
  (len < 8192 -> exists items last pro' slice r, test_producer_remaining pro = Ret items /\ tp_last pro = Some last /\
     f (repeat 0 len) pro = Ret (pro', (slice, r)) /\ overwrite_report items last len pro' slice r).
Proof. exact fuzz_overwrite_full_slice_iff. Qed.
Print Assumptions C60_overwrite_target_means.

(** For any implementation of the methods. *)
Theorem C60_bulk_consume_method_means :
  forall C con items slice_lengths, fuzz_bulk_consume C con items slice_lengths = Ret tt <->
  bulk_consume_alike C items slice_lengths con con.
Proof. exact bulk_consume_iff. Qed.
Print Assumptions C60_bulk_consume_method_means.

Theorem C60_bulk_produce_method_means :
  forall P pro slice_lengths, fuzz_bulk_produce P pro slice_lengths = Ret tt <->
  exists items, test_producer_remaining pro = Ret items /\
    bulk_produce_alike P slice_lengths (Some (length items)) (repeat 0 (length items)) pro pro.
Proof. exact bulk_produce_iff. Qed.
Print Assumptions C60_bulk_produce_method_means.

(** The slices that the two functions fill are not compared. *)
Theorem C60_bulk_overwrite_target_means :
  forall f g pro len, fuzz_bulk_overwrite_full_slice f g pro len = Ret tt <->
  (len < 8192 -> exists pro1 pro2 slice1 slice2 r, f (repeat 0 len) pro = Ret (pro1, (slice1, r)) /\
     g (repeat 0 len) pro = Ret (pro2, (slice2, r)) /\ same_pro pro1 pro2).
Proof. exact fuzz_bulk_overwrite_full_slice_iff. Qed.
Print Assumptions C60_bulk_overwrite_target_means.

Theorem C60_slices_unnoticed :
  forall f g pro len scrub, fuzz_bulk_overwrite_full_slice f g pro len = Ret tt ->
  fuzz_bulk_overwrite_full_slice
    (fun buf s => let* (s', (slice, r)) := f buf s in Ret (s', (scrub slice, r))) g pro len = Ret tt.
Proof.
  intros f g pro len scrub. rewrite !fuzz_bulk_overwrite_full_slice_iff. intros H Hl.
  destruct (H Hl) as (pro1 & pro2 & s1 & s2 & r & E1 & E2 & E3). exists pro1, pro2, (scrub s1), s2, r.
  rewrite E1. auto.
Qed.
Print Assumptions C60_slices_unnoticed.

Definition con1 : tcon := arbitrary_con 9 2 [1; 2] [true; false].
Definition pro1 : tpro := arbitrary_pro [1; 2; 3] (Ok 7) [2; 1] [false].

(** Both branches: a consumer that fails and one that does not; a producer that has enough items and one that ends. *)
Example C60_example_consume :
  exists con', consume_full_slice (test_consumer 0) [4; 5; 6] con1 = Ret (con', Err (mk_cale 2 9)) /\
    full_slice_report [4; 5; 6] 9 con' (Err (mk_cale 2 9)).
Proof. eexists. split; [vm_compute; reflexivity|]. vm_compute. repeat split; lia. Qed.

Example C60_example_overwrite :
  exists pro', overwrite_full_slice test_producer (repeat 0 5) pro1 = Ret (pro', ([1; 2; 3; 0; 0], Err (mk_pale 3 (inl 7)))) /\
    overwrite_report [1; 2; 3] (Ok 7) 5 pro' [1; 2; 3; 0; 0] (Err (mk_pale 3 (inl 7))).
Proof. eexists. split; [vm_compute; reflexivity|]. vm_compute. repeat split; lia. Qed.

(** Wrong programs that the targets catch: the last item is not consumed; the count is off by one; the first item of the
    slice is left out. *)
Example C60_example_short :
  fuzz_consume_full_slice (fun items => consume_full_slice (test_consumer 0) (removelast items))
    (arbitrary_con 9 5 [1] [false]) [4; 5; 6] = Panic.
Proof. reflexivity. Qed.
Example C60_example_count :
  fuzz_consume_full_slice (fun items s => let* (s, r) := consume_full_slice (test_consumer 0) items s in
    Ret (s, match r with Ok x => Ok x | Err e => Err (mk_cale (S (cale_count e)) (cale_reason e)) end)) con1 [4; 5; 6] = Panic.
Proof. reflexivity. Qed.
Example C60_example_shift :
  fuzz_overwrite_full_slice (fun buf s => let* (s, (xs, r)) := overwrite_full_slice test_producer (tl buf) s in Ret (s, (0 :: xs, r)))
    pro1 3 = Panic.
Proof. vm_compute. reflexivity. Qed.

(** The first two rounds; the third one fails. *)
Example C60_example_bulk_methods :
  (exists c1 c2, c_bulk_consume (test_consumer 0) [4; 5] con1 = Ret (c1, Ok 1) /\
     c_bulk_consume (test_consumer 0) [5; 6] c1 = Ret (c2, Ok 1)) /\
  bulk_consume_alike (test_consumer 0) [4; 5; 6] [2; 2; 1] con1 con1 /\
  bulk_produce_alike test_producer [2; 1] (Some 3) (repeat 0 3) pro1 pro1.
Proof.
  split; [eexists _, _; vm_compute; auto|]. split.
  - apply C60_bulk_consume_method_means. apply C60_bulk_consume_passes. repeat constructor.
  - destruct (proj1 (C60_bulk_produce_method_means test_producer pro1 [2; 1])) as (items & E1 & H).
    + apply C60_bulk_produce_passes; auto using Forall_cons, Forall_nil.
    + vm_compute in E1. injection E1 as <-. exact H.
Qed.

(** A [bulk_consume] that forgets to consume what it reports. *)
Example C60_example_bulk_consume :
  fuzz_bulk_consume (mk_bulk_consumer (test_consumer 0) (c_expose (test_consumer 0)) (c_write (test_consumer 0))
    (c_consume_slots (test_consumer 0)) (fun buf s => Ret (s, Ok (length buf)))) con1 [4; 5; 6] [2; 2] = Panic.
Proof. vm_compute. reflexivity. Qed.

(** A [bulk_produce] that panics instead of reporting the final value passes. *)
Definition no_end_producer : bulk_producer tpro nat nat nat :=
  mk_bulk_producer (test_producer (T := nat) (F := nat) (E := nat)) (p_expose test_producer) (p_consider test_producer)
    (fun buf s => match test_producer_remaining s with Ret [] => Panic | _ => p_bulk_produce test_producer buf s end).
Example C60_example_no_end :
  forall items last sizes pattern slice_lengths, Forall (fun n => 1 <= n) sizes ->
  fuzz_bulk_produce no_end_producer (arbitrary_pro items last sizes pattern) slice_lengths = Ret tt.
Proof.
  intros. apply C60_bulk_produce_passes; auto. intros buf s Hs. cbn.
  destruct (test_producer_remaining s) as [[|x xs]| |]; congruence.
Qed.

(** *** C61. The targets of the pipes. *)

Theorem C61_pipe_passes :
  forall items last psizes ppattern err until csizes cpattern fuel,
  Forall (fun n => 1 <= n) psizes -> Forall (fun n => 1 <= n) csizes -> length items < fuel ->
  fuzz_pipe (pipe fuel test_producer (test_consumer 0))
    (arbitrary_pro items last psizes ppattern) (arbitrary_con err until csizes cpattern) = Ret tt /\
  fuzz_bulk_pipe (bulk_pipe fuel test_producer (test_consumer 0)) (pipe fuel test_producer (test_consumer 0))
    (arbitrary_con err until csizes cpattern) (arbitrary_pro items last psizes ppattern) = Ret tt.
Proof. intros. split; [now apply pipe_passes|now apply bulk_pipe_passes]. Qed.
Print Assumptions C61_pipe_passes.

Theorem C61_pipe_at_most_passes :
  forall items last psizes ppattern err until csizes cpattern count,
  Forall (fun n => 1 <= n) psizes -> Forall (fun n => 1 <= n) csizes ->
  fuzz_pipe_at_most (fun count => pipe_at_most test_producer (test_consumer 0) count)
    (arbitrary_pro items last psizes ppattern) (arbitrary_con err until csizes cpattern) count = Ret tt /\
  forall fuel, count < fuel ->
  fuzz_bulk_pipe (bulk_pipe_at_most fuel test_producer (test_consumer 0) count) (pipe_at_most test_producer (test_consumer 0) count)
    (arbitrary_con err until csizes cpattern) (arbitrary_pro items last psizes ppattern) = Ret tt.
Proof. intros. split; [now apply pipe_at_most_passes|]. intros fuel Hf. now apply bulk_pipe_at_most_passes. Qed.
Print Assumptions C61_pipe_at_most_passes.

Theorem C61_pipe_target_means :
  forall f pro con, fuzz_pipe f pro con = Ret tt <->
  exists items last err pro' con' r,
    test_producer_remaining pro = Ret items /\ tp_last pro = Some last /\ tc_error con = Some err /\
    f pro con = Ret (pro', con', r) /\ pipe_report items last err pro' con' r.
Proof. exact fuzz_pipe_iff. Qed.
Print Assumptions C61_pipe_target_means.

Theorem C61_pipe_at_most_target_means :
  forall f pro con count, fuzz_pipe_at_most f pro con count = Ret tt <->
  exists items last err pro' con' r,
    test_producer_remaining pro = Ret items /\ tp_last pro = Some last /\ tc_error con = Some err /\
    f count pro con = Ret (pro', con', r) /\ pipe_at_most_report count items last err pro' con' r.
Proof. exact fuzz_pipe_at_most_iff. Qed.
Print Assumptions C61_pipe_at_most_target_means.

Theorem C61_bulk_pipe_target_means :
  forall X (H : eq_dec X) f g con pro, fuzz_bulk_pipe f g con pro = Ret tt <->
  exists pro1 con1 pro2 con2 (r : res X (pipe_error nat nat)),
    f pro con = Ret (pro1, con1, r) /\ g pro con = Ret (pro2, con2, r) /\ same_con con1 con2 /\ same_pro pro1 pro2.
Proof. exact fuzz_bulk_pipe_iff. Qed.
Print Assumptions C61_bulk_pipe_target_means.

(** Test producers are compared by the slice they were built from, not by what remains of it: a pipe that
    loses items after reporting success passes as well. *)
Definition lose (n : nat) (s : tpro) : tpro :=
  mk_tp (mk_from_slice (fs_slice (tp_inner s)) (Nat.min (length (fs_slice (tp_inner s))) (fs_offset (tp_inner s) + n)))
    (tp_last s) (tp_sizes s) (tp_yielder s).
Definition lossy {X} (n : nat) (f : tpro -> tcon -> outcome (tpro * tcon * res X (pipe_error nat nat))) (pro : tpro) (con : tcon)
  : outcome (tpro * tcon * res X (pipe_error nat nat)) :=
  let* (pro, con, r) := f pro con in
  Ret (match r with Ok _ => lose n pro | Err _ => pro end, con, r).

Theorem C61_lost_items_unnoticed :
  forall n,
  (forall X (H : eq_dec X) f g con pro, fuzz_bulk_pipe (X := X) f g con pro = Ret tt ->
     fuzz_bulk_pipe (lossy n f) g con pro = Ret tt) /\
  (forall f pro con count, fuzz_pipe_at_most f pro con count = Ret tt ->
     fuzz_pipe_at_most (fun count => lossy n (f count)) pro con count = Ret tt).
Proof.
  intros n. split.
  - intros X H f g con pro. rewrite !fuzz_bulk_pipe_iff. intros (p1 & c1 & p2 & c2 & r & E1 & E2 & E3 & E4).
    unfold lossy. rewrite E1. cbn [bind].
    exists (match r with Ok _ => lose n p1 | Err _ => p1 end), c1, p2, c2, r. repeat split; auto; destruct r; cbn; apply E4.
  - intros f pro con count. rewrite !fuzz_pipe_at_most_iff.
    intros (items & last & err & p1 & c1 & r & E1 & E2 & E3 & E4 & E5). unfold lossy. rewrite E4. cbn [bind].
    exists items, last, err, (match r with Ok _ => lose n p1 | Err _ => p1 end), c1, r. repeat split; auto.
    destruct r; exact E5.
Qed.
Print Assumptions C61_lost_items_unnoticed.

(** Two of three items are piped; the lossy pipe leaves no item where one should be left. *)
Example C61_example_lossy :
  exists p1 p2 c, pipe_at_most test_producer (test_consumer 0) 2 pro1 (arbitrary_con 9 5 [1] [false]) = Ret (p1, c, Ok 2) /\
    lossy 1 (pipe_at_most test_producer (test_consumer 0) 2) pro1 (arbitrary_con 9 5 [1] [false]) = Ret (p2, c, Ok 2) /\
    test_producer_remaining p1 = Ret [3] /\ test_producer_remaining p2 = Ret [].
Proof. eexists _, _, _. vm_compute. auto. Qed.

(** The three kinds of reports. *)
Example C61_example_reports :
  (exists p c, pipe 9 test_producer (test_consumer 0) pro1 (arbitrary_con 9 5 [1] [false]) = Ret (p, c, Ok tt)) /\
  (exists p c, pipe 9 test_producer (test_consumer 0) pro1 con1 = Ret (p, c, Err (PipeConsumer 9)) /\
     test_producer_remaining p = Ret []) /\
  (exists p c, pipe 9 test_producer (test_consumer 0) (arbitrary_pro [1] (Err 8) [1] [true]) con1 = Ret (p, c, Err (PipeProducer 8))).
Proof. repeat split; eexists _, _; vm_compute; auto. Qed.

(** Wrong programs that are caught: a pipe that does not close the consumer; one that stops too early. *)
Example C61_example_no_close :
  fuzz_pipe (fun p c => let* (p, c, r) := pipe_at_most test_producer (test_consumer 0) 3 p c in
    Ret (p, c, match r with Ok _ => Ok tt | Err e => Err e end)) pro1 (arbitrary_con 9 5 [1] [false]) = Panic.
Proof. vm_compute. reflexivity. Qed.
Example C61_example_early :
  fuzz_bulk_pipe (pipe_at_most test_producer (test_consumer 0) 1) (pipe_at_most test_producer (test_consumer 0) 2)
    (arbitrary_con 9 5 [1] [false]) pro1 = Panic.
Proof. vm_compute. reflexivity. Qed.

(** *** C62. The targets of producers behind a scrambler, with and without debug assertions. [fuel] bounds the loops; the
    queue of the scrambler has 2048 slots. *)

Theorem C62_from_slice_passes :
  forall dbg fuel input ops, (forall n, In (ScConsiderProduced n) ops -> 1 <= n) ->
  S scrambler_capacity * S (length ops) <= fuel -> length input < fuel ->
  fuzz_from_slice dbg fuel input ops = Ret tt.
Proof. exact from_slice_passes. Qed.
Print Assumptions C62_from_slice_passes.

Theorem C62_producer_targets_pass :
  forall dbg fuel items last sizes pattern ops, Forall (fun n => 1 <= n) sizes ->
  (forall n, In (ScConsiderProduced n) ops -> 1 <= n) ->
  S scrambler_capacity * S (length ops) <= fuel -> S (length items) < fuel ->
  fuzz_producer_scrambler dbg fuel (arbitrary_pro items last sizes pattern) ops = Ret tt /\
  fuzz_producer_invariant dbg fuel (arbitrary_pro items last sizes pattern) ops = Ret tt.
Proof. intros. split; [now apply producer_scrambler_passes|now apply producer_invariant_passes]. Qed.
Print Assumptions C62_producer_targets_pass.

(** The target for [from_slice], for any producer and any way of piping. *)
Theorem C62_from_slice_target_means :
  forall SP X E (f : SP -> into_vec nat -> outcome (SP * into_vec nat * res X E)) p input,
  fuzz_pipe_into_vec f p input = Ret tt <->
  exists p' v x, f p into_vec_new = Ret (p', v, Ok x) /\ into_vec_into_vec v = input.
Proof. exact pipe_into_vec_iff. Qed.
Print Assumptions C62_from_slice_target_means.

(** The loop of these targets passes if and only if both producers answer every call alike until the first one is done. *)
Theorem C62_comparison_means :
  forall S1 S2 stop (P1 : producer S1 nat nat nat) (P2 : producer S2 nat nat nat) fuel s1 s2,
  compare_producers fuel stop P1 P2 s1 s2 = Ret tt <->
  exists rs s1' s2', length rs < fuel /\ answers_until stop P1 s1 rs s1' /\ answers P2 s2 rs s2'.
Proof. intros. apply compare_producers_iff. Qed.
Print Assumptions C62_comparison_means.

Definition ops1 : list pscr_op := [ScProduce; ScConsiderProduced 2; ScSlurp].

(** The scrambler moves two items at a time; the run is a real one. *)
Example C62_example :
  fuzz_producer_scrambler true (S scrambler_capacity * 4) pro1 ops1 = Ret tt.
Proof.
  refine (proj1 (C62_producer_targets_pass true (S scrambler_capacity * 4) [1; 2; 3] (Ok 7) [2; 1] [false] ops1 _ _ _ _)).
  - repeat constructor.
  - cbn. intros n [H|[H|[H|[]]]]; try discriminate. injection H as <-. lia.
  - apply le_n.
  - rewrite Nat.mul_comm. cbn [length]. unfold lt. apply (Nat.le_trans _ (1 * 5)); [lia|].
    apply (Nat.mul_le_mono 1 4 5 (S scrambler_capacity)); [lia|]. apply le_n_S. unfold scrambler_capacity. lia.
Qed.
Example C62_example_answers :
  exists s', answers_until (@test_producer_did_already_emit_last nat nat nat) test_producer pro1
    [Ok (inl 1); Ok (inl 2); Ok (inl 3); Ok (inr 7)] s'.
Proof. eexists. repeat (eapply answers_until_step; [reflexivity|vm_compute; reflexivity|]). now constructor. Qed.

(** A producer that loses an item, or that fails instead of ending, is told apart. *)
Example C62_example_caught :
  compare_producers 9 (@test_producer_did_already_emit_last nat nat nat) test_producer test_producer
    pro1 (arbitrary_pro [1; 3] (Ok 7) [2; 1] [false]) = Panic /\
  compare_producers 9 (@test_producer_did_already_emit_last nat nat nat) test_producer test_producer
    pro1 (arbitrary_pro [1; 2; 3] (Err 7) [2; 1] [false]) = Panic.
Proof. split; vm_compute; reflexivity. Qed.

(** *** C63. The targets of consumers behind a scrambler: they pass on every input without debug assertions, and on inputs
    of at most 2048 items with debug assertions. *)

Theorem C63_consumer_targets_pass :
  forall dbg fuel err until sizes pattern ops input fin, Forall (fun n => 1 <= n) sizes ->
  (forall n, In (ScConsumeSlots n) ops -> 1 <= n) -> S scrambler_capacity * S (length ops) <= fuel ->
  (dbg = true -> length input <= scrambler_capacity) ->
  fuzz_consumer_scrambler dbg fuel (arbitrary_con err until sizes pattern) ops input fin = Ret tt /\
  fuzz_consumer_invariant dbg fuel (arbitrary_con err until sizes pattern) ops input fin = Ret tt.
Proof. intros. split; [now apply consumer_scrambler_passes|now apply consumer_invariant_passes]. Qed.
Print Assumptions C63_consumer_targets_pass.

Theorem C63_into_vec_passes :
  forall dbg fuel input capacity ops, (forall n, In (ScConsumeSlots n) ops -> 1 <= n) ->
  S scrambler_capacity * S (length ops) <= fuel -> (dbg = true -> length input <= scrambler_capacity) ->
  fuzz_into_vec dbg fuel input capacity ops = Ret tt.
Proof. exact into_vec_passes. Qed.
Print Assumptions C63_into_vec_passes.

(** What passing means, for any consumers in place of the scrambler and of [Invariant]. *)
Theorem C63_into_vec_target_means :
  forall S F E (C : buffered_consumer S nat F E) collect input s,
  fuzz_into_vec_with C collect input s = Ret tt <->
  exists s1 s2, consumes C input s s1 /\ c_flush C s1 = Ret (s2, Ok tt) /\ collect s2 = input.
Proof. exact into_vec_iff. Qed.
Print Assumptions C63_into_vec_target_means.

Theorem C63_scrambler_target_means :
  forall S C (CS : buffered_consumer S nat nat nat) inner input fin control s,
  fuzz_consumer_scrambler_loop C CS inner input fin control s = Ret tt <->
  mostly_transparent C CS inner input fin control s.
Proof. exact (@consumer_scrambler_iff). Qed.
Print Assumptions C63_scrambler_target_means.

Theorem C63_invariant_target_means :
  forall S1 S2 (CS : consumer S1 nat nat nat) (CI : consumer S2 nat nat nat) inner1 inner2 input fin s1 s2,
  fuzz_consumer_invariant_with CS CI inner1 inner2 input fin s1 s2 = Ret tt <->
  transparent CS CI inner1 inner2 input fin s1 s2.
Proof. exact (@consumer_invariant_iff). Qed.
Print Assumptions C63_invariant_target_means.

(** With debug assertions, which cargo-fuzz turns on, longer inputs always make the targets panic, whatever the scrambler does:
    the operation that finds the queue full trips the assertion of C31. *)
Theorem C63_debug_panics :
  forall fuel ops input fin capacity err until sizes pattern,
  Forall (fun n => 1 <= n) sizes -> (forall n, In (ScConsumeSlots n) ops -> 1 <= n) ->
  S scrambler_capacity * S (length ops) <= fuel -> scrambler_capacity < length input ->
  fuzz_into_vec true fuel input capacity ops = Panic /\
  (scrambler_capacity <= until ->
   fuzz_consumer_scrambler true fuel (arbitrary_con err until sizes pattern) ops input fin = Panic /\
   fuzz_consumer_invariant true fuel (arbitrary_con err until sizes pattern) ops input fin = Panic).
Proof. intros. split; [now apply into_vec_panics|]. intros. now apply consumer_targets_panic. Qed.
Print Assumptions C63_debug_panics.

Theorem C63_refuted :
  exists fuel input err until sizes pattern ops fin,
  Forall (fun n => 1 <= n) sizes /\ (forall n, In (ScConsumeSlots n) ops -> 1 <= n) /\
  fuzz_consumer_scrambler false fuel (arbitrary_con err until sizes pattern) ops input fin = Ret tt /\
  fuzz_consumer_scrambler true fuel (arbitrary_con err until sizes pattern) ops input fin = Panic /\
  fuzz_into_vec false fuel input 0 ops = Ret tt /\
  fuzz_into_vec true fuel input 0 ops = Panic.
Proof.
  exists (S scrambler_capacity * 4), (repeat 5 (S scrambler_capacity)), 9, scrambler_capacity, [1; 2], [true; false],
    [ScConsume; ScConsumeSlots 2; ScFlush], 7.
  assert (H1 : Forall (fun n => 1 <= n) [1; 2]) by repeat constructor.
  assert (H2 : forall n, In (ScConsumeSlots n) [ScConsume; ScConsumeSlots 2; ScFlush] -> 1 <= n).
  { cbn. intros n [H|[H|[H|[]]]]; try discriminate. injection H as <-. lia. }
  assert (H3 : S scrambler_capacity * S (length [ScConsume; ScConsumeSlots 2; ScFlush]) <= S scrambler_capacity * 4) by apply le_n.
  assert (H4 : scrambler_capacity < length (repeat 5 (S scrambler_capacity))) by (rewrite repeat_length; apply le_n).
  set (ops := [ScConsume; ScConsumeSlots 2; ScFlush]) in *. set (fuel := S scrambler_capacity * 4) in *.
  set (input := repeat 5 (S scrambler_capacity)) in *.
  destruct (C63_debug_panics fuel ops input 7 0 9 scrambler_capacity [1; 2] [true; false] H1 H2 H3 H4) as [D1 D2].
  destruct (D2 (le_n _)) as [D3 _].
  assert (H5 : false = true -> length input <= scrambler_capacity) by congruence.
  split; [exact H1|]. split; [exact H2|]. split.
  { exact (proj1 (C63_consumer_targets_pass false fuel 9 scrambler_capacity [1; 2] [true; false] ops input 7 H1 H2 H3 H5)). }
  split; [exact D3|]. split; [|exact D1].
  exact (C63_into_vec_passes false fuel input 0 ops H2 H3 H5).
Qed.
Print Assumptions C63_refuted.

Example C63_example :
  fuzz_consumer_scrambler true (S scrambler_capacity * 4) con1 [ScConsume; ScConsumeSlots 2; ScFlush] [4; 5; 6] 7 = Ret tt.
Proof.
  refine (proj1 (C63_consumer_targets_pass true (S scrambler_capacity * 4) 9 2 [1; 2] [true; false]
    [ScConsume; ScConsumeSlots 2; ScFlush] [4; 5; 6] 7 _ _ _ _)).
  - repeat constructor.
  - cbn. intros n [H|[H|[H|[]]]]; try discriminate. injection H as <-. lia.
  - apply le_n.
  - intros _. cbn [length]. unfold scrambler_capacity. lia.
Qed.

(** What is caught: a consumer that drops what it buffered when it is flushed; one that closes with an item missing; one
    that fails where the other does not. *)
Definition forgetful : buffered_consumer (tcon * list nat) nat nat nat := {|
  c_consumer := {|
    c_consume x s := Ret (fst s, snd s ++ [x], Ok tt);
    c_close f s := let* (c, r) := c_close (test_consumer 0) f (fst s) in Ret (c, snd s, r) |};
  c_flush s := Ret (fst s, [], Ok tt) |}.
Example C63_example_caught :
  fuzz_consumer_scrambler_loop (test_consumer 0) forgetful fst [4; 5; 6] 7 con1 (con1, []) = Panic /\
  fuzz_consumer_scrambler_loop (test_consumer 0) forgetful fst [4] 7 con1 (con1, []) = Panic /\
  fuzz_consumer_scrambler_loop (test_consumer 0) (test_consumer 0) (fun s => s) [4; 5] 7 con1 (arbitrary_con 9 1 [1] [true]) = Panic /\
  fuzz_into_vec_with forgetful (fun s => snd s) [4; 5] (con1, []) = Panic /\
  fuzz_consumer_invariant_with (test_consumer 0) forgetful (fun s => s) fst [4] 7 con1 (con1, []) = Panic.
Proof. vm_compute. auto. Qed.

(** Both kinds of runs of the second target: to the end, and to a failure that shows when the scrambler is flushed. *)
Example C63_example_means :
  mostly_transparent (test_consumer 0) (test_consumer 0) (fun s => s) [4; 5] 7 con1 con1 /\
  mostly_transparent (test_consumer 0) (test_consumer 0) (fun s => s) [4; 5; 6] 7 con1 con1 /\
  transparent (test_consumer 0) (test_consumer 0) (fun s => s) (fun s => s) [4; 5; 6; 8] 7 con1 con1.
Proof.
  split; [|split]; [apply C63_scrambler_target_means..|apply C63_invariant_target_means]; vm_compute; reflexivity.
Qed.

(** *** C64. The target of the merge adaptor, for every schedule. [None]: the schedule ended while both producers that
    are left were waiting; with enough rounds in which everything is ready this does not happen. *)

Theorem C64_merge_passes :
  forall fuel sched p1_items p1_last p1_sizes p1_pattern p2_items p2_last p2_sizes p2_pattern,
  Forall (fun n => 1 <= n) p1_sizes -> Forall (fun n => 1 <= n) p2_sizes ->
  length p1_items + length p2_items < fuel ->
  exists r, fuzz_merge fuel sched p1_items p1_last p1_sizes p1_pattern p2_items p2_last p2_sizes p2_pattern = Ret r /\
    (2 * (length p1_items + length p2_items + 1) <= rounds sched -> r = Some tt).
Proof. exact merge_passes. Qed.
Print Assumptions C64_merge_passes.

(** What a finished run means, for any [produce]. *)
Theorem C64_merge_target_means :
  forall M (produce : list choice -> M -> outcome (M * list choice * option (res (nat * bool + nat) nat)))
    p1_items p2_items p1_last p2_last fuel sched m,
  fuzz_merge_loop produce p1_items p2_items p1_last p2_last fuel sched m 0 0 = Ret (Some tt) <->
  exists zs last, length zs < fuel /\ merged_answers produce sched m zs last /\
    merge_report p1_items p2_items p1_last p2_last zs last.
Proof. exact (@merge_loop_start_iff). Qed.
Print Assumptions C64_merge_target_means.

Definition all_ready : choice := mk_choice true true true.
Example C64_example :
  fuzz_merge 5 (repeat all_ready 10) [1; 2] (Ok 7) [1] [true] [3; 4] (Ok 8) [2] [false] = Ret (Some tt).
Proof.
  destruct (C64_merge_passes 5 (repeat all_ready 10) [1; 2] (Ok 7) [1] [true] [3; 4] (Ok 8) [2] [false]) as (r & -> & H);
    [repeat constructor..|cbn; lia|]. now rewrite H.
Qed.
Example C64_example_waiting :
  fuzz_merge 5 (repeat (mk_choice true false true) 2 ++ [mk_choice false false true]) [1; 2] (Ok 7) [1] [true] [3; 4] (Ok 8) [2] [false] = Ret None.
Proof. vm_compute. reflexivity. Qed.

Example C64_example_means :
  merge_report [1; 2] [3; 4] (Ok 7) (Ok 8) [(1, true); (3, false); (4, false); (2, true)] (Ok 8) /\
  merge_report [1; 2] [3; 4] (Ok 7) (Err 8) [(1, true); (3, false); (4, false)] (Err 8) /\
  ~ merge_report [1; 2] [3; 4] (Ok 7) (Ok 8) [(1, true); (3, false); (4, false)] (Ok 8).
Proof.
  split; [|split].
  - split; [auto|]. exists [], []. auto.
  - split; [auto|]. exists [2], []. auto.
  - intros (_ & xs & ys & H1 & _ & -> & _). discriminate.
Qed.

(** Items that are lost, changed or swapped are noticed. *)
Example C64_example_caught :
  let run items := fuzz_merge_loop (merge_produce test_producer test_producer) [1; 2] [3; 4] (Ok 7) (Ok 8) 9 (repeat all_ready 20)
    (merge_new (test_producer_build (map (fun item => (item, true)) items) (Ok 7) (Some [1]) (Some [true]))
       (test_producer_build [(3, false); (4, false)] (Ok 8) (Some [1]) (Some [true]))) 0 0 in
  run [1; 2] = Ret (Some tt) /\ run [1] = Panic /\ run [1; 2; 3] = Panic /\ run [2; 1] = Panic.
Proof. vm_compute. auto. Qed.

(** Model of the fuzz targets, fuzz/fuzz_targets/queues and fuzz/fuzz_targets/ufotofu.

    A target is a function of its input; it returns [Ret tt] if the run ends without a failed assertion
    and [Panic] if some [assert!], [unwrap] or slice expression fails. [pollster::block_on] polls the one future
    until it is ready, which is what the model of the asynchronous functions assumes already. Integers
    ([u8], [u16], [i16], [usize]) are natural numbers. Inputs of type [TestProducer] and [TestConsumer] come from
    the [Arbitrary] instances (test_producer.rs 134-148, test_consumer.rs 139-153), that is, from the
    builders. The code under test is a parameter of each target, so that it is possible to say what a target accepts. The targets
    compat and compat_buf_read are in FuzzIoModel.v. *)
From Coq Require Import Bool List Arith.
From Verif Require Import Prelude QueueModel Traits BasicModel AdaptorModel ScramblerModel MergeModel.
Import ListNotations.
Set Implicit Arguments.
Set Warnings "-abstract-large-number".

(** ** Equality, for [assert_eq!] *)

Class eq_dec (X : Type) : Type := eqd : forall x y : X, {x = y} + {x <> y}.

Global Instance nat_eq_dec : eq_dec nat := Nat.eq_dec.
Global Instance bool_eq_dec : eq_dec bool := bool_dec.
Global Instance unit_eq_dec : eq_dec unit.
Proof. intros [] []. now left. Defined.
Global Instance list_eq_dec_ {X} (H : eq_dec X) : eq_dec (list X) := list_eq_dec H.
Global Instance option_eq_dec {X} (H : eq_dec X) : eq_dec (option X).
Proof. intros x y. unfold eq_dec in H. decide equality. Defined.
Global Instance sum_eq_dec {X Y} (H : eq_dec X) (H' : eq_dec Y) : eq_dec (X + Y).
Proof. intros x y. unfold eq_dec in H, H'. decide equality. Defined.
Global Instance res_eq_dec {X Y} (H : eq_dec X) (H' : eq_dec Y) : eq_dec (res X Y).
Proof. intros x y. unfold eq_dec in H, H'. decide equality. Defined.
Global Instance pipe_error_eq_dec {X Y} (H : eq_dec X) (H' : eq_dec Y) : eq_dec (pipe_error X Y).
Proof. intros x y. unfold eq_dec in H, H'. decide equality. Defined.
Global Instance cale_eq_dec {X} (H : eq_dec X) : eq_dec (consume_at_least_error X).
Proof. intros x y. unfold eq_dec in H. decide equality. apply Nat.eq_dec. Defined.
Global Instance pale_eq_dec {X Y} (H : eq_dec X) (H' : eq_dec Y) : eq_dec (produce_at_least_error X Y).
Proof. intros x y. unfold eq_dec in H, H'. decide equality; [decide equality|apply Nat.eq_dec]. Defined.

Definition eqb {X} {H : eq_dec X} (x y : X) : bool := if eqd x y then true else false.

(** [assert!(b)], [assert_eq!(x, y)]. *)
Definition assert (b : bool) : outcome unit := if b then Ret tt else Panic.
Definition assert_eq {X} {H : eq_dec X} (x y : X) : outcome unit := assert (eqb x y).

Notation "e ';;' k" := (bind e (fun _ => k)) (at level 199, right associativity).

(** [Result::unwrap], [Result::unwrap_err], [Either::unwrap_right]. *)
Definition unwrap {X E} (r : res X E) : outcome X := match r with Ok x => Ret x | Err _ => Panic end.
Definition unwrap_err {X E} (r : res X E) : outcome E := match r with Ok _ => Panic | Err e => Ret e end.
Definition either_left {X Y} (x : X + Y) : outcome X := match x with inl x => Ret x | inr _ => Panic end.
Definition either_right {X Y} (x : X + Y) : outcome Y := match x with inl _ => Panic | inr y => Ret y end.

Definition is_none {X} (o : option X) : bool := match o with None => true | Some _ => false end.
Definition is_err {X E} (r : res X E) : bool := negb (is_ok r).

(** [TestProducer<u16, u16, u16>], [TestConsumer<u16, u16, u16>]. *)
Notation tpro := (test_producer_state nat nat nat).
Notation tcon := (test_consumer_state nat nat nat).

(** The [Arbitrary] instances: all five values are arbitrary; [NonZeroUsize] is a hypothesis of the theorems. *)
Definition arbitrary_pro (items : list nat) (last : res nat nat) (sizes : list nat) (pattern : list bool) : tpro :=
  test_producer_build items last (Some sizes) (Some pattern).
Definition arbitrary_con (err operations_until_error : nat) (sizes : list nat) (pattern : list bool) : tcon :=
  test_consumer_build err operations_until_error (Some sizes) (Some pattern).

(** [PartialEq for TestConsumer], test_consumer.rs 166-174: the consumed items, the final value, the error. *)
Definition assert_same_con (a b : tcon) : outcome unit :=
  let* x := test_consumer_consumed a in
  let* y := test_consumer_consumed b in
  assert (eqb x y && eqb (tc_fin a) (tc_fin b) && eqb (tc_error a) (tc_error b)).

(** [PartialEq for TestProducer], test_producer.rs 161-168: the slice that the producer was built from
    (from_boxed_slice.rs 182-186; not what remains of it) and the last value. *)
Definition assert_same_pro (a b : tpro) : outcome unit :=
  assert (eqb (fs_slice (tp_inner a)) (fs_slice (tp_inner b)) && eqb (tp_last a) (tp_last b)).

(** ** Queues *)

(** queues/fixed_bulk.rs 12-18, queues/static_bulk.rs 12-18. The other two targets
    (fixed_enqueue_dequeue.rs 11-15, static_enqueue_dequeue.rs 11-15) have the first two operations only. *)
Inductive fop : Type :=
| FEnqueue (item : nat)
| FDequeue
| FBulkEnqueue (items : list nat)
| FBulkDequeue (n : nat).

(** [for (count, item) in items.iter().enumerate() { if count >= amount { break } else { control.push_back(item) } }],
    fixed_bulk.rs 51-57. *)
Fixpoint push_first (count amount : nat) (items control : list nat) : list nat :=
  match items with
  | [] => control
  | item :: items => if amount <=? count then control else push_first (count + 1) amount items (control ++ [item])
  end.

(** [for _ in 0..test_amount { if let Some(item) = control.pop_front() { control_buffer.push(item) } }],
    fixed_bulk.rs 66-70. *)
Fixpoint pop_first (amount : nat) (control control_buffer : list nat) : list nat * list nat :=
  match amount with
  | 0 => (control, control_buffer)
  | S amount =>
      match control with
      | item :: control => pop_first amount control (control_buffer ++ [item])
      | [] => pop_first amount control control_buffer
      end
  end.

Section QueueTargets.
  Context {Q : Type} (I : queue Q nat) (capacity : nat).

  (** The body of the loop, fixed_bulk.rs 33-75, static_bulk.rs 27-69; the first two cases are also
      fixed_enqueue_dequeue.rs 30-46 and static_enqueue_dequeue.rs 24-40. *)
  Definition fuzz_queue_step (operation : fop) (test : Q) (control : list nat) : outcome (Q * list nat) :=
    match operation with
    | FEnqueue item =>
        let (control, control_result) :=
          if capacity <=? length control then (control, Some item) else (control ++ [item], None) in
        let* (test, test_result) := q_enqueue I item test in
        assert_eq test_result control_result ;;
        Ret (test, control)
    | FDequeue =>
        let (control, control_result) :=
          match control with item :: control => (control, Some item) | [] => (control, None) end in
        let* (test, test_result) := q_dequeue I test in
        assert_eq test_result control_result ;;
        Ret (test, control)
    | FBulkEnqueue items =>
        let* (test, amount) := q_bulk_enqueue I items test in
        Ret (test, push_first 0 amount items control)
    | FBulkDequeue n =>
        if 0 <? n then
          let* (test, (test_buffer, test_amount)) := q_bulk_dequeue I (repeat 0 n) test in
          let (control, control_buffer) := pop_first test_amount control [] in
          let* x := slice_to test_amount test_buffer in
          let* y := slice_to test_amount control_buffer in
          assert_eq x y ;;
          Ret (test, control)
        else Ret (test, control)
    end.

  (** [for operation in operations { .. }] *)
  Fixpoint fuzz_queue_loop (operations : list fop) (test : Q) (control : list nat) : outcome unit :=
    match operations with
    | [] => Ret tt
    | operation :: operations =>
        let* (test, control) := fuzz_queue_step operation test control in
        fuzz_queue_loop operations test control
    end.
End QueueTargets.

(** fixed_bulk.rs 20-77; with the first two operations only: fixed_enqueue_dequeue.rs 17-48. *)
Definition fuzz_fixed (operations : list fop) (capacity : nat) : outcome unit :=
  if (1 <=? capacity) && (capacity <=? 2048) then
    fuzz_queue_loop (fixed_queue nat) capacity operations (fixed_new 0 capacity) []
  else Ret tt.

(** static_bulk.rs 20-71; with the first two operations only: static_enqueue_dequeue.rs 17-42. *)
Definition fuzz_static (operations : list fop) : outcome unit :=
  fuzz_queue_loop (static_queue 42) 42 operations (static_new 42 0) [].

(** ** Full slices *)

(** ufotofu/consume_full_slice.rs 6-26; [f] is [consume_full_slice]. *)
Definition fuzz_consume_full_slice
    (f : list nat -> tcon -> outcome (tcon * res unit (consume_at_least_error nat)))
    (con : tcon) (items : list nat) : outcome unit :=
  let* expected_err := expect (test_consumer_peek_error con) in
  let* (con, r) := f items con in
  match r with
  | Ok tt =>
      assert (negb (test_consumer_did_error con)) ;;
      let* consumed := test_consumer_consumed con in
      assert_eq consumed items ;;
      assert (is_none (test_consumer_final_consumed con))
  | Err (mk_cale count reason) =>
      assert (test_consumer_did_error con) ;;
      assert_eq reason expected_err ;;
      let* consumed := test_consumer_consumed con in
      let* expected := slice_to count items in
      assert_eq consumed expected ;;
      assert (is_none (test_consumer_final_consumed con))
  end.

(** ufotofu/bulk_consume_full_slice.rs 6-17; [f] is [bulk_consume_full_slice], [g] is [consume_full_slice]. *)
Definition fuzz_bulk_consume_full_slice
    (f g : list nat -> tcon -> outcome (tcon * res unit (consume_at_least_error nat)))
    (con : tcon) (items : list nat) : outcome unit :=
  let control := con in
  let* (con, r1) := f items con in
  let* (control, r2) := g items control in
  assert_eq r1 r2 ;;
  assert_same_con con control.

(** ufotofu/overwrite_full_slice.rs 7-34; [f] is [overwrite_full_slice]. *)
Definition fuzz_overwrite_full_slice
    (f : list nat -> tpro -> outcome (tpro * (list nat * res unit (produce_at_least_error nat nat))))
    (pro : tpro) (len : nat) : outcome unit :=
  if len <? 8192 then
    let* expected_items := test_producer_remaining pro in
    let* expected_last := expect (test_producer_peek_last pro) in
    let* (pro, (slice, r)) := f (repeat 0 len) pro in
    match r with
    | Ok tt =>
        assert (negb (test_producer_did_already_emit_last pro)) ;;
        let* expected := slice_to len expected_items in
        assert_eq slice expected
    | Err (mk_pale count reason) =>
        assert (test_producer_did_already_emit_last pro) ;;
        match expected_last with
        | Ok fin => assert_eq reason (inl fin)
        | Err err => assert_eq reason (inr err)
        end ;;
        let* got := slice_to count slice in
        let* expected := slice_to count expected_items in
        assert_eq got expected
    end
  else Ret tt.

(** ufotofu/bulk_overwrite_full_slice.rs 6-23; [f] is [bulk_overwrite_full_slice], [g] is
    [overwrite_full_slice]. The two slices are not compared. *)
Definition fuzz_bulk_overwrite_full_slice
    (f g : list nat -> tpro -> outcome (tpro * (list nat * res unit (produce_at_least_error nat nat))))
    (pro : tpro) (len : nat) : outcome unit :=
  if len <? 8192 then
    let control := pro in
    let* (pro, (_, r1)) := f (repeat 0 len) pro in
    let* (control, (_, r2)) := g (repeat 0 len) control in
    assert_eq r1 r2 ;;
    assert_same_pro pro control
  else Ret tt.

(** ** Bulk calls *)

Section BulkConsume.
  Context (C : bulk_consumer tcon nat nat nat).

  (** [for _ in 0..num_consumed { assert!(control.consume(items[consumed_so_far]).await.is_ok()); consumed_so_far += 1; }],
      ufotofu/bulk_consume.rs 34-37. *)
  Fixpoint repeat_consume (num_consumed : nat) (items : list nat) (consumed_so_far : nat) (control : tcon)
    : outcome (tcon * nat) :=
    match num_consumed with
    | 0 => Ret (control, consumed_so_far)
    | S num_consumed =>
        let* item := index consumed_so_far items in
        let* (control, r) := c_consume C item control in
        assert (is_ok r) ;;
        repeat_consume num_consumed items (consumed_so_far + 1) control
    end.

  (** The loop and what follows it, bulk_consume.rs 16-52. [slice_lengths] is what is left of the lengths from
      [slice_length_index] on. *)
  Fixpoint fuzz_bulk_consume_loop (items slice_lengths : list nat) (consumed_so_far : nat) (con control : tcon)
    : outcome unit :=
    match slice_lengths with
    | [] => assert_same_con con control
    | slice_length :: slice_lengths =>
        let* rest := slice_from consumed_so_far items in
        match rest with
        | [] => assert_same_con con control
        | _ =>
            let* available := csub (length items) consumed_so_far in
            let slice_length := Nat.min slice_length available in
            if slice_length =? 0 then assert_same_con con control
            else
              let* buf := slice consumed_so_far (consumed_so_far + slice_length) items in
              let* (con, r) := c_bulk_consume C buf con in
              match r with
              | Ok num_consumed =>
                  let* (control, consumed_so_far) := repeat_consume num_consumed items consumed_so_far control in
                  assert_same_con con control ;;
                  fuzz_bulk_consume_loop items slice_lengths consumed_so_far con control
              | Err err =>
                  let* item := index consumed_so_far items in
                  let* (control, r) := c_consume C item control in
                  let* err' := unwrap_err r in
                  assert_eq err err' ;;
                  assert_same_con con control
              end
        end
    end.

  (** ufotofu/bulk_consume.rs 8-55. *)
  Definition fuzz_bulk_consume (con : tcon) (items slice_lengths : list nat) : outcome unit :=
    fuzz_bulk_consume_loop items slice_lengths 0 con con.
End BulkConsume.

Section BulkProduce.
  Context (P : bulk_producer tpro nat nat nat).

  (** [for _ in 0..num_consumed { produced_control.push(control.produce().await.unwrap().unwrap_left()); produced_so_far += 1; }],
      ufotofu/bulk_produce.rs 36-40. *)
  Fixpoint repeat_produce (num_consumed : nat) (produced_control : list nat) (produced_so_far : nat) (control : tpro)
    : outcome (tpro * (list nat * nat)) :=
    match num_consumed with
    | 0 => Ret (control, (produced_control, produced_so_far))
    | S num_consumed =>
        let* (control, r) := p_produce P control in
        let* r := unwrap r in
        let* control_item := either_left r in
        repeat_produce num_consumed (produced_control ++ [control_item]) (produced_so_far + 1) control
    end.

  (** [assert_eq!(&produced[..produced_so_far], &produced_control[..]); assert_eq!(pro, control);],
      bulk_produce.rs 53-54, 57-58. *)
  Definition check_produced (produced produced_control : list nat) (produced_so_far : nat) (pro control : tpro)
    : outcome unit :=
    let* x := slice_to produced_so_far produced in
    assert_eq x produced_control ;;
    assert_same_pro pro control.

  (** The loop and what follows it, bulk_produce.rs 16-58. *)
  Fixpoint fuzz_bulk_produce_loop (slice_lengths : list nat) (num_items : nat)
      (produced produced_control : list nat) (produced_so_far : nat) (pro control : tpro) : outcome unit :=
    match slice_lengths with
    | [] => check_produced produced produced_control produced_so_far pro control
    | slice_length :: slice_lengths =>
        let* available := csub num_items produced_so_far in
        let slice_length := Nat.min slice_length available in
        if slice_length =? 0 then check_produced produced produced_control produced_so_far pro control
        else
          let* buf := slice_from produced_so_far produced in
          let* (pro, (buf, r)) := p_bulk_produce P buf pro in
          let produced := firstn produced_so_far produced ++ buf in
          match r with
          | Ok (inl num_consumed) =>
              let* (control, (produced_control, produced_so_far)) :=
                repeat_produce num_consumed produced_control produced_so_far control in
              check_produced produced produced_control produced_so_far pro control ;;
              fuzz_bulk_produce_loop slice_lengths num_items produced produced_control produced_so_far pro control
          | Ok (inr fin) =>
              let* (control, r) := p_produce P control in
              let* r := unwrap r in
              let* fin' := either_right r in
              assert_eq fin fin' ;;
              check_produced produced produced_control produced_so_far pro control
          | Err err =>
              let* (control, r) := p_produce P control in
              let* err' := unwrap_err r in
              assert_eq err err' ;;
              check_produced produced produced_control produced_so_far pro control
          end
    end.

  (** ufotofu/bulk_produce.rs 9-60. *)
  Definition fuzz_bulk_produce (pro : tpro) (slice_lengths : list nat) : outcome unit :=
    let* remaining := test_producer_remaining pro in
    let num_items := length remaining in
    fuzz_bulk_produce_loop slice_lengths num_items (repeat 0 num_items) [] 0 pro pro.
End BulkProduce.

(** ** Pipes *)

(** ufotofu/pipe.rs 6-44; [f] is [pipe]. *)
Definition fuzz_pipe (f : tpro -> tcon -> outcome (tpro * tcon * res unit (pipe_error nat nat)))
    (pro : tpro) (con : tcon) : outcome unit :=
  let* items := test_producer_remaining pro in
  let* last := expect (test_producer_peek_last pro) in
  let* consumer_err := expect (test_consumer_peek_error con) in
  let* (pro, con, r) := f pro con in
  match r with
  | Ok tt =>
      assert (test_producer_did_already_emit_last pro) ;;
      let* consumed := test_consumer_consumed con in
      assert_eq consumed items ;;
      let* fin := unwrap last in
      assert_eq (test_consumer_final_consumed con) (Some fin)
  | Err (PipeConsumer err) =>
      assert (negb (is_none (test_producer_peek_last pro) && is_err last)) ;;
      assert (test_consumer_did_error con) ;;
      assert_eq err consumer_err ;;
      let* consumed := test_consumer_consumed con in
      let* expected := slice_to (length consumed) items in
      assert_eq consumed expected ;;
      let* remaining := test_producer_remaining pro in
      let* expected :=
        slice_from (length consumed + if test_producer_did_already_emit_last pro then 0 else 1) items in
      assert_eq remaining expected
  | Err (PipeProducer err) =>
      assert (test_producer_did_already_emit_last pro) ;;
      assert (negb (test_consumer_did_error con)) ;;
      let* last_err := unwrap_err last in
      assert_eq err last_err ;;
      let* consumed := test_consumer_consumed con in
      let* expected := slice_to (length consumed) items in
      assert_eq consumed expected ;;
      let* remaining := test_producer_remaining pro in
      let* expected := slice_from (length consumed) items in
      assert_eq remaining expected
  end.

(** ufotofu/pipe_at_most.rs 6-55; [f] is [pipe_at_most]. *)
Definition fuzz_pipe_at_most (f : nat -> tpro -> tcon -> outcome (tpro * tcon * res nat (pipe_error nat nat)))
    (pro : tpro) (con : tcon) (count : nat) : outcome unit :=
  let* items := test_producer_remaining pro in
  let* last := expect (test_producer_peek_last pro) in
  let* consumer_err := expect (test_consumer_peek_error con) in
  let* (pro, con, r) := f count pro con in
  match r with
  | Ok amount =>
      (if amount <? count then assert (test_producer_did_already_emit_last pro || test_consumer_did_error con)
       else assert (negb (test_producer_did_already_emit_last pro) && negb (test_consumer_did_error con))) ;;
      let* consumed := test_consumer_consumed con in
      let* expected := slice_to amount items in
      assert_eq consumed expected ;;
      if amount <? count then
        let* fin := unwrap last in
        assert_eq (test_consumer_final_consumed con) (Some fin)
      else Ret tt
  | Err (PipeConsumer err) =>
      assert (negb (is_none (test_producer_peek_last pro) && is_err last)) ;;
      assert (test_consumer_did_error con) ;;
      assert_eq err consumer_err ;;
      let* consumed := test_consumer_consumed con in
      let* expected := slice_to (length consumed) items in
      assert_eq consumed expected ;;
      let* remaining := test_producer_remaining pro in
      let* expected :=
        slice_from (length consumed + if test_producer_did_already_emit_last pro then 0 else 1) items in
      assert_eq remaining expected ;;
      assert (length consumed <? count)
  | Err (PipeProducer err) =>
      assert (test_producer_did_already_emit_last pro) ;;
      assert (negb (test_consumer_did_error con)) ;;
      let* last_err := unwrap_err last in
      assert_eq err last_err ;;
      let* consumed := test_consumer_consumed con in
      let* expected := slice_to (length consumed) items in
      assert_eq consumed expected ;;
      let* remaining := test_producer_remaining pro in
      let* expected := slice_from (length consumed) items in
      assert_eq remaining expected ;;
      assert (length consumed <? count)
  end.

(** ufotofu/bulk_pipe.rs 6-21; [f] is [bulk_pipe], [g] is [pipe]. With [X = nat] and the count applied:
    ufotofu/bulk_pipe_at_most.rs 6-23. *)
Definition fuzz_bulk_pipe {X} {H : eq_dec X}
    (f g : tpro -> tcon -> outcome (tpro * tcon * res X (pipe_error nat nat)))
    (con : tcon) (pro : tpro) : outcome unit :=
  let control_con := con in
  let control_pro := pro in
  let* (pro, con, r1) := f pro con in
  let* (control_pro, control_con, r2) := g control_pro control_con in
  assert_eq r1 r2 ;;
  assert_same_con con control_con ;;
  assert_same_pro pro control_pro.

(** ** Producers behind a scrambler *)

(** The capacity of [BulkScrambler::new], producer/bulk_scrambler.rs 53-55, consumer/bulk_scrambler.rs 52-54. *)
Definition scrambler_capacity : nat := 2048.

(** ufotofu/from_slice.rs 14-19, for any producer [p] in place of the scrambler; [f] is [pipe]. *)
Definition fuzz_pipe_into_vec {SP X E : Type} (f : SP -> into_vec nat -> outcome (SP * into_vec nat * res X E))
    (p : SP) (input : list nat) : outcome unit :=
  let* (_, into_vec, r) := f p into_vec_new in
  assert (is_ok r) ;;
  assert_eq input (into_vec_into_vec into_vec).

(** ufotofu/from_slice.rs 10-21; ufotofu/from_boxed_slice.rs 10-22 is the same for the other producer, whose
    model is the same. [fuel] bounds the loops of [pipe] and of the scrambler. *)
Definition fuzz_from_slice (dbg : bool) (fuel : nat) (input : list nat) (ops : list pscr_op) : outcome unit :=
  let p := pscr_new_with_capacity 0 (from_slice_new input) ops scrambler_capacity in
  fuzz_pipe_into_vec (pipe fuel (pscr_producer dbg fuel from_slice_producer) (into_vec_consumer 0)) p input.

(** [while !control.did_already_emit_last() { assert_eq!(control.produce().await, test.produce().await) }],
    ufotofu/producer_bulk_scrambler_is_transparent.rs 15-17, ufotofu/producer_invariant_is_transparent.rs 18-20. *)
Fixpoint compare_producers {S1 S2 : Type} (fuel : nat) (did_emit_last : S1 -> bool)
    (P1 : producer S1 nat nat nat) (P2 : producer S2 nat nat nat) (control : S1) (test : S2) : outcome unit :=
  match fuel with
  | 0 => NoFuel
  | S fuel =>
      if did_emit_last control then Ret tt
      else
        let* (control, r1) := p_produce P1 control in
        let* (test, r2) := p_produce P2 test in
        assert_eq r1 r2 ;;
        compare_producers fuel did_emit_last P1 P2 control test
  end.

(** producer_bulk_scrambler_is_transparent.rs 9-20. *)
Definition fuzz_producer_scrambler (dbg : bool) (fuel : nat) (control : tpro) (ops : list pscr_op) : outcome unit :=
  let scrambler := pscr_new_with_capacity 0 control ops scrambler_capacity in
  compare_producers fuel (@test_producer_did_already_emit_last nat nat nat)
    test_producer (pscr_producer dbg fuel test_producer) control scrambler.

(** producer_invariant_is_transparent.rs 9-23. Outside of the library's own tests [Invariant] is the variant
    that forwards everything (producer.rs, [cfg(test)]). *)
Definition fuzz_producer_invariant (dbg : bool) (fuel : nat) (p1 : tpro) (ops1 : list pscr_op) : outcome unit :=
  let control := pscr_new_with_capacity 0 p1 ops1 scrambler_capacity in
  let invarianted := pscr_new_with_capacity 0 p1 ops1 scrambler_capacity in
  compare_producers fuel (fun s => test_producer_did_already_emit_last (ps_inner s))
    (pscr_producer dbg fuel test_producer)
    (invariant_noop_producer (pscr_producer dbg fuel test_producer)) control invarianted.

(** ** Consumers behind a scrambler *)

(** [for item in &input { assert!(into_vec.consume(item).await.is_ok()) }], ufotofu/into_vec.rs 16-18. *)
Fixpoint consume_each {S T F E : Type} (C : consumer S T F E) (input : list T) (s : S) : outcome S :=
  match input with
  | [] => Ret s
  | item :: input =>
      let* (s, r) := c_consume C item s in
      assert (is_ok r) ;;
      consume_each C input s
  end.

(** ufotofu/into_vec.rs 16-23, without line 22, which is about the capacity of the vector (see MemoryModel.v), for any consumer [C] in place of
    the scrambler; [collect] is [into_inner().into_vec()]. *)
Definition fuzz_into_vec_with {S F E : Type} (C : buffered_consumer S nat F E) (collect : S -> list nat)
    (input : list nat) (into_vec : S) : outcome unit :=
  let* into_vec := consume_each C input into_vec in
  let* (into_vec, r) := c_flush C into_vec in
  assert (is_ok r) ;;
  let collected := collect into_vec in
  assert_eq input collected.

(** ufotofu/into_vec.rs 9-25. *)
Definition fuzz_into_vec (dbg : bool) (fuel : nat) (input : list nat) (capacity : nat) (ops : list cscr_op) : outcome unit :=
  let capacity := Nat.min capacity 2048 in
  let into_vec := cscr_new_with_capacity 0 (@into_vec_with_capacity nat capacity) ops scrambler_capacity in
  fuzz_into_vec_with (cscr_consumer dbg 0 fuel (into_vec_consumer 0)) (fun s => into_vec_into_vec (cs_inner s)) input into_vec.

Section ConsumerScrambler.
  Context {S : Type} (C : consumer tcon nat nat nat) (CS : buffered_consumer S nat nat nat) (into_inner : S -> tcon).

  (** The loop of ufotofu/consumer_bulk_scrambler_is_mostly_transparent.rs 19-44 and what follows it, for any consumer [CS]
      in place of the scrambler. *)
  Fixpoint fuzz_consumer_scrambler_loop (input : list nat) (fin : nat) (control : tcon) (scrambler : S) : outcome unit :=
    match input with
    | [] =>
        let* (control, res_close) := c_close C fin control in
        let* (scrambler, r) := c_close CS fin scrambler in
        assert_eq res_close r ;;
        assert_same_con control (into_inner scrambler)
    | x :: input =>
        let* (control, r) := c_consume C x control in
        match r with
        | Err control_err =>
            let* (scrambler, r) := c_consume CS x scrambler in
            let* (scrambler, scrambler_err) :=
              match r with
              | Err err => Ret (scrambler, err)
              | Ok tt =>
                  let* (scrambler, r) := c_flush CS scrambler in
                  let* err := unwrap_err r in
                  Ret (scrambler, err)
              end in
            assert_eq control_err scrambler_err ;;
            assert_same_con control (into_inner scrambler)
        | Ok tt =>
            let* (scrambler, r) := c_consume CS x scrambler in
            assert (is_ok r) ;;
            fuzz_consumer_scrambler_loop input fin control scrambler
        end
    end.
End ConsumerScrambler.

(** consumer_bulk_scrambler_is_mostly_transparent.rs 9-46. *)
Definition fuzz_consumer_scrambler (dbg : bool) (fuel : nat) (control : tcon) (ops : list cscr_op)
    (input : list nat) (fin : nat) : outcome unit :=
  fuzz_consumer_scrambler_loop (test_consumer 0) (cscr_consumer dbg 0 fuel (test_consumer 0)) (@cs_inner _ _)
    input fin control (cscr_new_with_capacity 0 control ops scrambler_capacity).

Section ConsumerInvariant.
  Context {S1 S2 : Type} (CS : consumer S1 nat nat nat) (CI : consumer S2 nat nat nat)
    (inner1 : S1 -> tcon) (inner2 : S2 -> tcon).

  (** The loop of ufotofu/consumer_invariant_is_transparent.rs 22-28, for any two consumers. *)
  Fixpoint fuzz_consumer_invariant_loop (input : list nat) (control : S1) (invarianted : S2) : outcome (S1 * S2) :=
    match input with
    | [] => Ret (control, invarianted)
    | x :: input =>
        let* (control, r1) := c_consume CS x control in
        let* (invarianted, r2) := c_consume CI x invarianted in
        assert_eq r1 r2 ;;
        if test_consumer_did_error (inner1 control) then Ret (control, invarianted)
        else fuzz_consumer_invariant_loop input control invarianted
    end.

  (** consumer_invariant_is_transparent.rs 22-34. *)
  Definition fuzz_consumer_invariant_with (input : list nat) (fin : nat) (control : S1) (invarianted : S2) : outcome unit :=
    let* (control, invarianted) := fuzz_consumer_invariant_loop input control invarianted in
    let* (control, invarianted) :=
      if negb (test_consumer_did_error (inner1 control)) then
        let* (control, r1) := c_close CS fin control in
        let* (invarianted, r2) := c_close CI fin invarianted in
        assert_eq r1 r2 ;;
        Ret (control, invarianted)
      else Ret (control, invarianted) in
    assert_same_con (inner1 control) (inner2 invarianted).
End ConsumerInvariant.

(** consumer_invariant_is_transparent.rs 9-36. *)
Definition fuzz_consumer_invariant (dbg : bool) (fuel : nat) (p1 : tcon) (ops1 : list cscr_op) (input : list nat) (fin : nat)
  : outcome unit :=
  let control := cscr_new_with_capacity 0 p1 ops1 scrambler_capacity in
  let invarianted := cscr_new_with_capacity 0 p1 ops1 scrambler_capacity in
  let CS := cscr_consumer dbg 0 fuel (@test_consumer nat nat nat 0) in
  fuzz_consumer_invariant_with CS (invariant_noop_consumer CS) (@cs_inner _ _) (@cs_inner _ _) input fin control invarianted.

(** ** Merge *)

Section MergeTarget.
  Context {M : Type} (merge_produce : list choice -> M -> outcome (M * list choice * option (res (nat * bool + nat) nat))).
  Context (p1_items_clone p2_items_clone : list nat) (p1_last p2_last : res nat nat).

  (** The loop, ufotofu/producer_merge.rs 54-76, for any [produce] in place of the one of the merge adaptor. [None]: still
      waiting when the schedule is used up. *)
  Fixpoint fuzz_merge_loop (fuel : nat) (sched : list choice) (merged : M) (offset_1 offset_2 : nat)
    : outcome (option unit) :=
    match fuel with
    | 0 => NoFuel
    | S fuel =>
        let* (merged, sched, r) := merge_produce sched merged in
        match r with
        | None => Ret None
        | Some (Ok (inl (item, from_first_producer))) =>
            if from_first_producer : bool then
              let* expected := index offset_1 p1_items_clone in
              assert_eq expected item ;;
              fuzz_merge_loop fuel sched merged (offset_1 + 1) offset_2
            else
              let* expected := index offset_2 p2_items_clone in
              assert_eq expected item ;;
              fuzz_merge_loop fuel sched merged offset_1 (offset_2 + 1)
        | Some (Ok (inr fin)) =>
            assert_eq offset_1 (length p1_items_clone) ;;
            assert_eq offset_2 (length p2_items_clone) ;;
            assert (eqb (Ok fin) p1_last || eqb (Ok fin) p2_last) ;;
            Ret (Some tt)
        | Some (Err err) =>
            assert (eqb (Err err) p1_last || eqb (Err err) p2_last) ;;
            Ret (Some tt)
        end
    end.
End MergeTarget.

(** ufotofu/producer_merge.rs 12-78. The readiness of the two producers, which in the target follows from the
    yield patterns, is up to the schedule. *)
Definition fuzz_merge (fuel : nat) (sched : list choice)
    (p1_items : list nat) (p1_last : res nat nat) (p1_item_sizes : list nat) (p1_yield_pattern : list bool)
    (p2_items : list nat) (p2_last : res nat nat) (p2_item_sizes : list nat) (p2_yield_pattern : list bool)
  : outcome (option unit) :=
  let p1 := test_producer_build (map (fun item => (item, true)) p1_items) p1_last (Some p1_item_sizes) (Some p1_yield_pattern) in
  let p2 := test_producer_build (map (fun item => (item, false)) p2_items) p2_last (Some p2_item_sizes) (Some p2_yield_pattern) in
  fuzz_merge_loop (merge_produce test_producer test_producer) p1_items p2_items p1_last p2_last fuel sched (merge_new p1 p2) 0 0.

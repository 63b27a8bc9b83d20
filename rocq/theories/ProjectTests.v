(** The unit tests and the documentation examples of the project, run on the model.

    Each [Example] cites the test and consists of its calls and its assertions, in order. They say
    nothing about other inputs; they are evidence that the definitions of the model compute what the code computes, as far as
    the authors tested it. Tests that are left out: those about capacities of vectors (into_vec.rs 58), and [tcp_impl_is_not_broken]
    (reader.rs 250-274), which tests the network library. The final value 9999 is 99 here. *)
From Coq Require Import Bool List Arith ZArith String.
From Coq.Init Require Import Byte.
From Verif Require Import Prelude QueueModel Traits Contracts BasicModel AdaptorModel IoModel FuzzIoModel IoSpec FuzzIoSpec
  CodecModel EndianModel PropIo PropFuzzIo DebugModel.
Import ListNotations.

(** Performs calls, returns the answers. *)
Fixpoint p_calls {S T F E} (P : bulk_producer S T F E) (ops : list (pop T)) (s : S) : outcome (S * list (pans T F E)) :=
  match ops with
  | [] => Ret (s, [])
  | o :: ops => let* (s, r) := p_do P o s in let* (s, rs) := p_calls P ops s in Ret (s, r :: rs)
  end.

Fixpoint c_calls {S T F E} (C : bulk_consumer S T F E) (ops : list (cop T F)) (s : S) : outcome (S * list (cans E)) :=
  match ops with
  | [] => Ret (s, [])
  | o :: ops => let* (s, r) := c_do C o s in let* (s, rs) := c_calls C ops s in Ret (s, r :: rs)
  end.

(** The same, observing the object with [f] after every call. *)
Fixpoint p_watch {S T F E X} (P : bulk_producer S T F E) (f : S -> X) (ops : list (pop T)) (s : S)
  : outcome (list (pans T F E * X)) :=
  match ops with
  | [] => Ret []
  | o :: ops => let* (s, r) := p_do P o s in let* rs := p_watch P f ops s in Ret ((r, f s) :: rs)
  end.

Fixpoint c_watch {S T F E X} (C : bulk_consumer S T F E) (f : S -> X) (ops : list (cop T F)) (s : S)
  : outcome (list (cans E * X)) :=
  match ops with
  | [] => Ret []
  | o :: ops => let* (s, r) := c_do C o s in let* rs := c_watch C f ops s in Ret ((r, f s) :: rs)
  end.

Definition yes {E} : cans E := CAUnit (Ok tt).
Definition item {T F E} (x : T) : pans T F E := PAItem (Ok (inl x)).
Definition fin {T F E} (f : F) : pans T F E := PAItem (Ok (inr f)).

(** ** ufotofu_queues/src/fixed.rs 436-561 *)

Section QueueTests.
  Context {Q : Type} (I : queue Q nat).

  (** [enqueues_and_dequeues_with_correct_amount] *)
  Definition test_enqueue_dequeue (q : Q) :=
    let* (q, a) := q_enqueue I 7 q in
    let* (q, b) := q_enqueue I 21 q in
    let* (q, c) := q_enqueue I 196 q in
    let l1 := q_len I q in
    let* (q, d) := q_enqueue I 233 q in
    let l2 := q_len I q in
    let* (q, e) := q_dequeue I q in
    Ret ((a, b, c, l1), (d, l2), (e, q_len I q)).

  (** [bulk_enqueues_and_dequeues_with_correct_amount] *)
  Definition test_bulk (q : Q) :=
    let* (q, n) := q_bulk_enqueue I [117; 102; 111] q in
    let* (q, (buf, m)) := q_bulk_dequeue I [0; 0; 0; 0] q in
    Ret (n =? m).

  (** [returns_item_on_enqueue_when_queue_is_full] *)
  Definition test_full (q : Q) :=
    let* (q, a) := q_enqueue I 7 q in
    let* (q, b) := q_enqueue I 0 q in
    Ret (a, b).

  (** [returns_none_on_dequeue_when_queue_is_empty] *)
  Definition test_empty (q : Q) :=
    let* (q, _) := q_enqueue I 7 q in
    let* (q, _) := q_dequeue I q in
    let* (q, a) := q_dequeue I q in
    Ret a.

  (** [returnes_none_on_enqueue_slots_when_none_are_available]. [slots[0..2]] needs two slots. *)
  Definition test_slots (q : Q) :=
    let* (q, n) := q_expose_slots I q in
    let q := q_write I [116; 111] q in
    let* q := q_consider_enqueued I 2 q in
    let* (q, m) := q_expose_slots I q in
    let q := q_write I [116; 111] q in
    let* q := q_consider_enqueued I 2 q in
    let* (q, k) := q_expose_slots I q in
    Ret (n, m, k).

  (** [returns_none_on_dequeue_slots_when_none_are_available] *)
  Definition test_items (q : Q) :=
    let* (q, n) := q_bulk_enqueue I [116; 111; 102; 117] q in
    let* (q, a) := q_expose_items I q in
    let* q := q_consider_dequeued I 4 q in
    let* (q, b) := q_expose_items I q in
    Ret (a, b).

  (** [test_debug_impl] *)
  Definition test_debug {X : Type} (debug : Q -> outcome X) (q : Q) :=
    let* (q, _) := q_enqueue I 7 q in
    let* (q, _) := q_enqueue I 21 q in
    let* (q, _) := q_enqueue I 196 q in
    let* d1 := debug q in
    let* (q, a) := q_dequeue I q in
    let* d2 := debug q in
    let* (q, b) := q_dequeue I q in
    let* d3 := debug q in
    let* (q, _) := q_enqueue I 33 q in
    let* d4 := debug q in
    let* (q, _) := q_enqueue I 17 q in
    let* d5 := debug q in
    let* (q, _) := q_enqueue I 200 q in
    let* d6 := debug q in
    Ret (a, b, [d1; d2; d3; d4; d5; d6]).
End QueueTests.

Example fixed_tests :
  let q n := @fixed_new nat 0 n in let I := fixed_queue nat in
  test_enqueue_dequeue I (q 4) = Ret ((None, None, None, 3), (None, 4), (Some 7, 3)) /\
  test_bulk I (q 4) = Ret true /\
  test_full I (q 1) = Ret (None, Some 0) /\
  test_empty I (q 1) = Ret None /\
  test_slots I (q 4) = Ret (Some 4, Some 2, None) /\
  test_items I (q 4) = Ret (Some [116; 111; 102; 117], None) /\
  test_debug I (fun q => debug_fixed debug_usize q false) (q 4) = Ret (Some 7, Some 21,
    ["Fixed { capacity: 4, len: 3, data: [7, 21, 196] }";
     "Fixed { capacity: 4, len: 2, data: [21, 196] }";
     "Fixed { capacity: 4, len: 1, data: [196] }";
     "Fixed { capacity: 4, len: 2, data: [196, 33] }";
     "Fixed { capacity: 4, len: 3, data: [196, 33, 17] }";
     "Fixed { capacity: 4, len: 4, data: [196, 33, 17, 200] }"]%string).
Proof. vm_compute. repeat split; reflexivity. Qed.

(** ** ufotofu_queues/src/static_.rs 174-290 *)
Example static_tests :
  let q n := @static_new nat n 0 in let I n := @static_queue nat n in
  test_enqueue_dequeue (I 4) (q 4) = Ret ((None, None, None, 3), (None, 4), (Some 7, 3)) /\
  test_bulk (I 4) (q 4) = Ret true /\
  test_full (I 1) (q 1) = Ret (None, Some 0) /\
  test_empty (I 1) (q 1) = Ret None /\
  test_slots (I 4) (q 4) = Ret (Some 4, Some 2, None) /\
  test_items (I 4) (q 4) = Ret (Some [116; 111; 102; 117], None) /\
  test_debug (I 4) (fun q => debug_static 4 debug_usize q false) (q 4) = Ret (Some 7, Some 21,
    ["Static { len: 3, data: [7, 21, 196] }";
     "Static { len: 2, data: [21, 196] }";
     "Static { len: 1, data: [196] }";
     "Static { len: 2, data: [196, 33] }";
     "Static { len: 3, data: [196, 33, 17] }";
     "Static { len: 4, data: [196, 33, 17, 200] }"]%string).
Proof. vm_compute. repeat split; reflexivity. Qed.

(** ** consumer/into_vec.rs *)

(** 214-222. *)
Example debug_output_hides_transparent_wrappers :
  debug_public (debug_into_vec (@debug_num u8)) (invariant_new into_vec_new) false = Ret "IntoVec { v: [], consumed: 0 }"%string.
Proof. reflexivity. Qed.

(** 225-235. *)
Example converts_into_vec :
  (let C := invariant_consumer (into_vec_consumer 0) in
   let* (s, r) := bulk_consume_full_slice 8 C [117; 102; 111; 116; 111; 102; 117] (invariant_new into_vec_new) in
   let* (s, r2) := c_close C tt s in
   Ret (r, r2, into_vec_into_vec (inv_inner s)))
  = Ret (Ok tt, Ok tt, [117; 102; 111; 116; 111; 102; 117]).
Proof. vm_compute. reflexivity. Qed.

(** 33-39 and 98-104, 51-59, 72-81. *)
Example into_vec_docs :
  let run s := let* (s, r) := c_calls (into_vec_consumer 0) [CConsume 4; CConsume 7] s in Ret (r, into_vec_into_vec s) in
  run into_vec_new = Ret ([yes; yes], [4; 7]) /\
  run (into_vec_with_capacity 999) = Ret ([yes; yes], [4; 7]) /\
  run (into_vec_from_vec [1; 2; 3]) = Ret ([yes; yes], [1; 2; 3; 4; 7]).
Proof. vm_compute. repeat split; reflexivity. Qed.

(** ** consumer/limit.rs 18-23 *)
Example limit_consumer_docs :
  (let* (_, r) := c_calls (limit_consumer (into_vec_consumer 9)) [CConsume 0; CConsume 1; CConsume 2] (limit_new into_vec_new 2) in Ret r)
  = Ret [yes; yes; CAUnit (Err None)].
Proof. vm_compute. reflexivity. Qed.

(** ** consumer/test_consumer.rs *)

(** 26-33, 184-191, 209-216, 280-287. *)
Example test_consumer_docs :
  (let* (s, r) := c_calls (test_consumer 0) [CConsume 4; CConsume 7; CConsume 99] (@test_consumer_build nat unit nat 404 2 None None) in
   let* v := test_consumer_consumed s in Ret (r, v))
  = Ret ([yes; yes; CAUnit (Err 404)], [4; 7]).
Proof. vm_compute. reflexivity. Qed.

(** 44-50. *)
Example test_consumer_docs_consumed :
  (let* (s, r) := c_calls (test_consumer 0) [CConsume 4; CConsume 7] (@test_consumer_build nat unit unit tt 999 None None) in
   let* v := test_consumer_consumed s in Ret (r, v))
  = Ret ([yes; yes], [4; 7]).
Proof. vm_compute. reflexivity. Qed.

(** 62-69 and 81-88. *)
Example test_consumer_docs_final :
  let s := @test_consumer_build nat nat unit tt 999 None None in
  c_watch (test_consumer 0) test_consumer_final_consumed [CConsume 4; CClose 17] s = Ret [(yes, None); (yes, Some 17)] /\
  (let* (s, _) := c_calls (test_consumer 0) [CConsume 4; CClose 17] s in Ret (test_consumer_into_consumed s)) = Ret ([4], Some 17).
Proof. vm_compute. split; reflexivity. Qed.

(** 100-107 and 119-126. *)
Example test_consumer_docs_error :
  let s := @test_consumer_build nat unit nat 404 1 None None in
  c_watch (test_consumer 0) test_consumer_peek_error [CConsume 4; CConsume 99] s = Ret [(yes, Some 404); (CAUnit (Err 404), None)] /\
  c_watch (test_consumer 0) test_consumer_did_error [CConsume 4; CConsume 99] s = Ret [(yes, false); (CAUnit (Err 404), true)].
Proof. vm_compute. split; reflexivity. Qed.

(** 237-245. *)
Example test_consumer_docs_sizes :
  (let* (_, r) := c_calls (test_consumer 0) [CExpose; CExpose; CExpose] (@test_consumer_build nat unit unit tt 999 (Some [76; 1]) None) in Ret r)
  = Ret [CASlots (Ok 76); CASlots (Ok 1); CASlots (Ok 76)].
Proof. vm_compute. reflexivity. Qed.

(** ** producer/empty.rs 24-28 *)
Example empty_docs :
  (let* (_, r) := p_calls (@empty_producer bool nat nat) [PProduce] (empty_new 17) in Ret r) = Ret [fin 17].
Proof. vm_compute. reflexivity. Qed.

(** ** producer/from_slice.rs and producer/from_boxed_slice.rs *)

(** from_slice.rs 24-31, 45-57, 70-82, 95-107, 120-126; from_boxed_slice.rs 32-39, 54-61, 76-88, 101-113, 126-138, 151-157. *)
Example from_slice_docs :
  let s := from_slice_new [1; 2; 3] in
  let ops := [PProduce; PProduce; PProduce; PProduce] in
  let P := from_slice_producer in
  (let* (_, r) := p_calls P ops s in Ret r) = Ret [item 1; item 2; item 3; fin tt] /\
  fs_offset s = 0 /\
  p_watch P (@fs_offset nat) ops s = Ret [(item 1, 1); (item 2, 2); (item 3, 3); (fin tt, 3)] /\
  from_slice_produced_so_far s = Ret [] /\
  p_watch P from_slice_produced_so_far ops s
    = Ret [(item 1, Ret [1]); (item 2, Ret [1; 2]); (item 3, Ret [1; 2; 3]); (fin tt, Ret [1; 2; 3])] /\
  from_slice_not_yet_produced s = Ret [1; 2; 3] /\
  p_watch P from_slice_not_yet_produced ops s
    = Ret [(item 1, Ret [2; 3]); (item 2, Ret [3]); (item 3, Ret []); (fin tt, Ret [])] /\
  (let* (s, _) := p_calls P [PProduce; PProduce] s in Ret (from_slice_into_inner s)) = Ret [1; 2; 3].
Proof. vm_compute. repeat split; reflexivity. Qed.

(** ** producer/limit.rs 20-33 *)
Example limit_producer_docs :
  let run n k := let* (_, r) := p_calls (limit_producer from_slice_producer) (repeat PProduce k) (limit_new (from_slice_new [0; 1; 2]) n) in Ret r in
  run 2 3 = Ret [item 0; item 1; fin None] /\
  run 4 4 = Ret [item 0; item 1; item 2; fin (Some tt)].
Proof. vm_compute. split; reflexivity. Qed.

(** ** producer/test_producer.rs *)

(** 32-39, 180-187, 207-214, 282-289. *)
Example test_producer_docs :
  (let* (_, r) := p_calls (@test_producer nat nat infallible) (repeat PProduce 4) (test_producer_build [1; 2; 3] (Ok 99) None None) in Ret r)
  = Ret [item 1; item 2; item 3; fin 99].
Proof. vm_compute. reflexivity. Qed.

(** 52-58, 72-78, 94-99, 113-121, 237-245. *)
Example test_producer_docs_accessors :
  (let* (s, r) := p_calls test_producer [PProduce; PProduce] (test_producer_build [1; 2; 3; 4] (@Ok unit unit tt) None None) in
   let* v := test_producer_remaining s in Ret (r, v)) = Ret ([item 1; item 2], [3; 4]) /\
  (let* (s, r) := p_calls test_producer [PProduce; PProduce] (test_producer_build [1; 2; 3; 4] (@Err unit nat 999) None None) in
   Ret (r, test_producer_into_data s)) = Ret ([item 1; item 2], ([1; 2; 3; 4], Some (Err 999))) /\
  (let* (s, r) := p_calls test_producer [PProduce] (test_producer_build [1; 2; 3] (@Ok nat infallible 99) None None) in
   Ret (r, test_producer_peek_last s)) = Ret ([item 1], Some (Ok 99)) /\
  (let s := test_producer_build [1] (@Ok nat infallible 99) None None in
   test_producer_did_already_emit_last s = false /\
   p_watch test_producer test_producer_did_already_emit_last [PProduce; PProduce] s = Ret [(item 1, false); (fin 99, true)]) /\
  (let* (_, r) := p_calls test_producer [PExpose; PExpose; PExpose] (test_producer_build [1; 2; 3; 4] (@Ok nat infallible 99) (Some [2; 1]) None) in
   Ret r) = Ret [PASlice (Ok (inl [1; 2])); PASlice (Ok (inl [1])); PASlice (Ok (inl [1; 2]))].
Proof. vm_compute. repeat split; reflexivity. Qed.

(** ** producer/reader.rs 277-313 and 316-358: [adaptor_regression_test] and [adaptor_regression_test2], which differ
    in what they print. [ok_writer] and [ch_reader] are the two ends of a connection, [wire] connects them; the numbers are how
    many bytes they take at a time. *)
Example adaptor_regression_test :
  let run chunks :=
    let* sender := fuzz_send (writer_consumer (logged ok_writer) (fixed_queue nat) 4) [7]
                     (mk_writer_state (chunks, []) (fixed_new 0 3)) in
    fuzz_receive (reader_producer ch_reader (fixed_queue nat) 0) [7] (mk_reader_state (wire (ws_writer sender)) (fixed_new 0 3)) in
  run [] = Ret tt /\ run [0; 2] = Ret tt.
Proof. vm_compute. split; reflexivity. Qed.

(** ** ufotofu_codec_endian/src/lib.rs 31-38 and 119-126, with the parameters of 214-232 *)
Definition doc_test (w : wrapper) (n : Z) (arr : list byte) : Prop :=
  encode_into_boxed_slice (endian_encode w) (endian_len_of_encoding w) (num_of (wrapped w) n) = Ret arr /\
  match decode_from_slice (endian_decode w) arr with
  | Ret (Ok v) => num_val v = n
  | _ => False
  end.

Example endian_docs :
  Forall (fun t => match t with (w, n, arr) => doc_test w n arr end)
    [(U8BE, 18, [x12]); (U16BE, 4813, [x12; xcd]); (U32BE, 4813, [x00; x00; x12; xcd]);
     (U64BE, 4813, [x00; x00; x00; x00; x00; x00; x12; xcd]);
     (I8BE, 18, [x12]); (I16BE, 4813, [x12; xcd]); (I32BE, 4813, [x00; x00; x12; xcd]);
     (I64BE, 4813, [x00; x00; x00; x00; x00; x00; x12; xcd]);
     (U8LE, 18, [x12]); (U16LE, 4813, [xcd; x12]); (U32LE, 4813, [xcd; x12; x00; x00]);
     (U64LE, 4813, [xcd; x12; x00; x00; x00; x00; x00; x00]);
     (I8LE, 18, [x12]); (I16LE, 4813, [xcd; x12]); (I32LE, 4813, [xcd; x12; x00; x00]);
     (I64LE, 4813, [xcd; x12; x00; x00; x00; x00; x00; x00])]%Z.
Proof. repeat (apply Forall_cons; [vm_compute; split; reflexivity|]). apply Forall_nil. Qed.

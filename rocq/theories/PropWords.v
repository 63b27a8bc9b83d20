(** C73: the queues compute with machine words. *)
From Coq Require Import Bool List Arith Lia.
From Verif Require Import Prelude QueueModel QueueSpec WordModel WordProofs QueueProofs.
Import ListNotations.

(** Whatever the size [W] of the range of [usize], with or without overflow
    checks: a queue of capacity [c] behaves as a bounded FIFO list under all
    sequences of calls exactly when twice its capacity fits. *)
Theorem C73_word_queue_iff : forall W checked T c (tmp : nat -> T), 0 < c -> c < W ->
  (forall ops, q_conforms (word_queue W checked T) c ops (fixed_new_with_manual_tmps c tmp)
     (mk_qabs [] 0 [])) <-> 2 * c <= W.
Proof. exact word_queue_iff. Qed.

(** Items that take up memory: an allocation has fewer than [W / 2] bytes, so that
    the bound always holds. *)
Theorem C73_sized_items : forall half checked T c size (tmp : nat -> T) ops,
  0 < c -> 1 <= size -> c * size < half ->
  q_conforms (word_queue (2 * half) checked T) c ops (fixed_new_with_manual_tmps c tmp)
    (mk_qabs [] 0 []).
Proof. intros half checked T c size tmp ops H0 H1 H2. apply word_conforms; nia. Qed.

(** Under the bound the words change nothing: the histories are those of the model
    with unbounded numbers, so that what is proved there (C01, C03-C05, C07) holds here. *)
Theorem C73_same_histories : forall W checked T c (tmp : nat -> T) h q a, 0 < c -> 2 * c <= W ->
  q_history (word_queue W checked T) c (fixed_new_with_manual_tmps c tmp) (mk_qabs [] 0 []) h q a <->
  q_history (fixed_queue T) c (fixed_new_with_manual_tmps c tmp) (mk_qabs [] 0 []) h q a.
Proof.
  intros W checked T c tmp h q a H0 HW. apply word_history_iff; [exact HW|]. now apply fixed_new_R.
Qed.

(** Above the bound, which only items of size zero can reach: in both builds a
    permitted history fills the queue and the next [expose_items] panics. *)
Theorem C73_zero_sized_refuted : forall W checked c, c < W -> W < 2 * c ->
  exists h q a,
    q_history (word_queue W checked unit) c (fixed_new tt c) (mk_qabs [] 0 []) h q a /\
    length (qa_items a) = c /\
    q_do (word_queue W checked unit) OpExposeItems q = Panic.
Proof.
  intros W checked c H1 H2.
  destruct (@word_overflow W checked unit c H2 H1 (fun _ => tt) tt) as (q & a & H).
  exists (word_witness c tt), q, a. exact H.
Qed.

(** Numbers below 256. Capacity 128 is the largest that works ... *)
Example C73_example_fits : forall checked ops,
  q_conforms (word_queue 256 checked nat) 128 ops (fixed_new 0 128) (mk_qabs [] 0 []).
Proof. intros checked. apply (C73_word_queue_iff 256 checked nat 128 (fun _ => 0)); lia. Qed.

(** ... and with 129 the items of the full queue cannot be exposed, while [dequeue]
    still works. *)
Example C73_example_overflow :
  (forall checked, exists q rs,
     q_run (word_queue 256 checked unit) (map fst (word_witness 129 tt)) (fixed_new tt 129) = Ret (q, rs) /\
     q_len (word_queue 256 checked unit) q = 129 /\
     q_expose_items (word_queue 256 checked unit) q = Panic /\
     exists q', q_dequeue (word_queue 256 checked unit) q = Ret (q', Some tt)) /\
  wadd 256 true 128 128 = Panic /\ wadd 256 false 128 129 = Ret 1.
Proof.
  split; [|split; reflexivity].
  intros [|]; eexists; eexists; (split; [vm_compute; reflexivity|]);
    (split; [reflexivity|split; [vm_compute; reflexivity|]]);
    eexists; vm_compute; reflexivity.
Qed.

Print Assumptions C73_word_queue_iff.
Print Assumptions C73_sized_items.
Print Assumptions C73_same_histories.
Print Assumptions C73_zero_sized_refuted.

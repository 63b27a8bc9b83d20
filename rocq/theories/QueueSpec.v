(** Specification of queues: a bounded first-in-first-out list, written without
    reference to any implementation. *)
From Coq Require Import List Arith.
From Verif Require Import Prelude QueueModel.
Import ListNotations.
Set Implicit Arguments.

(** The specification state of a queue: the stored items (oldest first), how many
    slots are currently offered to the caller, and what the caller has
    written into the first of them. *)
Record qabs (T : Type) : Type := mk_qabs {
  qa_items : list T;
  qa_slots : nat;
  qa_written : list T
}.

(** The calls a client can make. [OpWrite ys] is the client storing [ys] into the
    first of the exposed slots. *)
Inductive qop (T : Type) : Type :=
| OpLen
| OpIsEmpty
| OpEnqueue (x : T)
| OpDequeue
| OpBulkEnqueue (buf : list T)
| OpBulkDequeue (buf : list T)
| OpExposeSlots
| OpWrite (ys : list T)
| OpConsiderEnqueued (n : nat)
| OpExposeItems
| OpConsiderDequeued (n : nat).
Arguments OpLen {T}.
Arguments OpIsEmpty {T}.
Arguments OpDequeue {T}.
Arguments OpExposeSlots {T}.
Arguments OpConsiderEnqueued {T} n.
Arguments OpExposeItems {T}.
Arguments OpConsiderDequeued {T} n.

(** What a call answers. *)
Inductive qans (T : Type) : Type :=
| ANat (n : nat)
| ABool (b : bool)
| AItem (o : option T)
| ASlots (o : option nat)
| AItems (o : option (list T))
| ABuf (buf : list T) (n : nat)
| AUnit.
Arguments ANat {T} n.
Arguments ABool {T} b.
Arguments ASlots {T} o.
Arguments AUnit {T}.

(** When the documented rules permit a call: writes go to exposed slots, only
    written slots are marked as enqueued, only stored items are marked as
    dequeued. *)
Definition q_permitted {T} (a : qabs T) (o : qop T) : Prop :=
  match o with
  | OpWrite ys => length ys <= qa_slots a
  | OpConsiderEnqueued n => n <= length (qa_written a)
  | OpConsiderDequeued n => n <= length (qa_items a)
  | _ => True
  end.

(** The answers a queue of capacity [c] may give in state [a], and the state it
    must be in afterwards. Only the sizes of the exposed slices (and hence the
    amounts of the bulk calls) are left open. *)
Definition q_answer {T} (c : nat) (a : qabs T) (o : qop T) (r : qans T) (a' : qabs T) : Prop :=
  let items := qa_items a in
  match o, r with
  | OpLen, ANat n => n = length items /\ a' = a
  | OpIsEmpty, ABool b => (b = true <-> items = []) /\ a' = a
  | OpEnqueue x, AItem None =>
      length items < c /\ a' = mk_qabs (items ++ [x]) 0 []
  | OpEnqueue x, AItem (Some y) => length items = c /\ y = x /\ a' = a
  | OpDequeue, AItem None => items = [] /\ a' = a
  | OpDequeue, AItem (Some y) =>
      exists rest, items = y :: rest /\ a' = mk_qabs rest (qa_slots a) (qa_written a)
  | OpBulkEnqueue buf, ANat n =>
      n <= length buf /\ length items + n <= c /\
      (n = 0 <-> length items = c \/ buf = []) /\
      a' = mk_qabs (items ++ firstn n buf) 0 []
  | OpBulkDequeue buf, ABuf buf' n =>
      n <= length buf /\ n <= length items /\
      (n = 0 <-> items = [] \/ buf = []) /\
      buf' = firstn n items ++ skipn n buf /\
      a' = mk_qabs (skipn n items) (qa_slots a) (qa_written a)
  | OpExposeSlots, ASlots None => length items = c /\ a' = a
  | OpExposeSlots, ASlots (Some n) =>
      1 <= n /\ length items + n <= c /\ a' = mk_qabs items n []
  | OpWrite ys, AUnit =>
      a' = mk_qabs items (qa_slots a) (overlay ys (qa_written a))
  | OpConsiderEnqueued n, AUnit =>
      a' = mk_qabs (items ++ firstn n (qa_written a)) (qa_slots a - n) (skipn n (qa_written a))
  | OpExposeItems, AItems None => items = [] /\ a' = a
  | OpExposeItems, AItems (Some s) =>
      s <> [] /\ (exists rest, items = s ++ rest) /\ a' = a
  | OpConsiderDequeued n, AUnit =>
      a' = mk_qabs (skipn n items) (qa_slots a) (qa_written a)
  | _, _ => False
  end.

(** Performing a call on an implementation. *)
Definition q_do {Q T} (I : queue Q T) (o : qop T) (q : Q) : outcome (Q * qans T) :=
  match o with
  | OpLen => Ret (q, ANat (q_len I q))
  | OpIsEmpty => Ret (q, ABool (q_is_empty I q))
  | OpEnqueue x => let* (q, r) := q_enqueue I x q in Ret (q, AItem r)
  | OpDequeue => let* (q, r) := q_dequeue I q in Ret (q, AItem r)
  | OpBulkEnqueue b => let* (q, r) := q_bulk_enqueue I b q in Ret (q, ANat r)
  | OpBulkDequeue b => let* (q, (b', r)) := q_bulk_dequeue I b q in Ret (q, ABuf b' r)
  | OpExposeSlots => let* (q, r) := q_expose_slots I q in Ret (q, ASlots r)
  | OpWrite ys => Ret (q_write I ys q, AUnit)
  | OpConsiderEnqueued n => let* q := q_consider_enqueued I n q in Ret (q, AUnit)
  | OpExposeItems => let* (q, r) := q_expose_items I q in Ret (q, AItems r)
  | OpConsiderDequeued n => let* q := q_consider_dequeued I n q in Ret (q, AUnit)
  end.

(** [q_conforms I c ops q a]: performing [ops] on [q] answers as a bounded FIFO
    list in state [a] would, call by call, for as long as the caller respects
    the rules. In particular no call panics. *)
Inductive q_conforms {Q T} (I : queue Q T) (c : nat) : list (qop T) -> Q -> qabs T -> Prop :=
| q_conforms_nil : forall q a, q_conforms I c [] q a
| q_conforms_broken : forall o ops q a,
    ~ q_permitted a o -> q_conforms I c (o :: ops) q a
| q_conforms_step : forall o ops q a q' r a',
    q_permitted a o ->
    q_do I o q = Ret (q', r) ->
    q_answer c a o r a' ->
    q_conforms I c ops q' a' ->
    q_conforms I c (o :: ops) q a.

(** A history: a rule-respecting sequence of calls with the answers it got. *)
Inductive q_history {Q T} (I : queue Q T) (c : nat)
  : Q -> qabs T -> list (qop T * qans T) -> Q -> qabs T -> Prop :=
| q_history_nil : forall q a, q_history I c q a [] q a
| q_history_step : forall q a o q' r a' h q'' a'',
    q_permitted a o ->
    q_do I o q = Ret (q', r) ->
    q_answer c a o r a' ->
    q_history I c q' a' h q'' a'' ->
    q_history I c q a ((o, r) :: h) q'' a''.

(** The complete answers of a run, for stating facts about whole histories. *)
Fixpoint q_run {Q T} (I : queue Q T) (ops : list (qop T)) (q : Q)
  : outcome (Q * list (qans T)) :=
  match ops with
  | [] => Ret (q, [])
  | o :: ops =>
      let* (q, r) := q_do I o q in
      let* (q, rs) := q_run I ops q in
      Ret (q, r :: rs)
  end.

(** Enqueueing the given items one at a time (all must be accepted). *)
Fixpoint q_enqueue_all {Q T} (I : queue Q T) (xs : list T) (q : Q) : outcome Q :=
  match xs with
  | [] => Ret q
  | x :: xs =>
      let* (q, r) := q_enqueue I x q in
      match r with None => q_enqueue_all I xs q | Some _ => Panic end
  end.

(** Dequeueing [n] items one at a time (all must exist). *)
Fixpoint q_dequeue_n {Q T} (I : queue Q T) (n : nat) (q : Q) : outcome (Q * list T) :=
  match n with
  | 0 => Ret (q, [])
  | S n =>
      let* (q, r) := q_dequeue I q in
      match r with
      | Some x => let* (q, xs) := q_dequeue_n I n q in Ret (q, x :: xs)
      | None => Panic
      end
  end.

(** The contract of a queue implementation of capacity [c], as used by the code
    that is generic over queues: [R q items k w] relates the concrete state to
    the specification state. *)
Record lawful_queue {Q T} (I : queue Q T) (c : nat)
    (R : Q -> list T -> nat -> list T -> Prop) : Prop := {
  lq_wf : forall q items k w, R q items k w ->
    length items <= c /\ length items + k <= c /\ length w <= k;
  lq_forget : forall q items k w, R q items k w -> R q items 0 [];
  lq_len : forall q items k w, R q items k w -> q_len I q = length items;
  lq_enqueue_full : forall q items k w x, R q items k w -> length items = c ->
    q_enqueue I x q = Ret (q, Some x);
  lq_enqueue : forall q items k w x, R q items k w -> length items < c ->
    exists q', q_enqueue I x q = Ret (q', None) /\ R q' (items ++ [x]) 0 [];
  lq_expose_slots_full : forall q items k w, R q items k w -> length items = c ->
    q_expose_slots I q = Ret (q, None);
  lq_expose_slots : forall q items k w, R q items k w -> length items < c ->
    exists q' n, q_expose_slots I q = Ret (q', Some n) /\
      1 <= n /\ length items + n <= c /\ R q' items n [];
  lq_write : forall q items k w ys, R q items k w -> length ys <= k ->
    R (q_write I ys q) items k (overlay ys w);
  lq_consider_enqueued : forall q items k w n, R q items k w -> n <= length w ->
    exists q', q_consider_enqueued I n q = Ret q' /\
      R q' (items ++ firstn n w) (k - n) (skipn n w);
  lq_dequeue_empty : forall q k w, R q [] k w -> q_dequeue I q = Ret (q, None);
  lq_dequeue : forall q x items k w, R q (x :: items) k w ->
    exists q', q_dequeue I q = Ret (q', Some x) /\ R q' items k w;
  lq_expose_items_empty : forall q k w, R q [] k w -> q_expose_items I q = Ret (q, None);
  lq_expose_items : forall q items k w, R q items k w -> items <> [] ->
    exists q' s rest, q_expose_items I q = Ret (q', Some s) /\
      s <> [] /\ items = s ++ rest /\ R q' items k w;
  lq_consider_dequeued : forall q items k w n, R q items k w -> n <= length items ->
    exists q', q_consider_dequeued I n q = Ret q' /\ R q' (skipn n items) k w
}.

(** Items that enter a queue through a call, and items that come out with an answer. *)
Definition qop_inputs {T} (o : qop T) : list T :=
  match o with
  | OpEnqueue x => [x]
  | OpBulkEnqueue b => b
  | OpWrite ys => ys
  | _ => []
  end.

(** The items that an answer hands to the caller ([ABuf]: only the part that was
    overwritten). *)
Definition qans_outputs {T} (r : qans T) : list T :=
  match r with
  | AItem (Some y) => [y]
  | AItems (Some s) => s
  | ABuf buf n => firstn n buf
  | _ => []
  end.

Arguments lq_wf {Q T I c R} _ {q items k w} _.
Arguments lq_forget {Q T I c R} _ {q items k w} _.
Arguments lq_len {Q T I c R} _ {q items k w} _.
Arguments lq_enqueue_full {Q T I c R} _ {q items k w} x _ _.
Arguments lq_enqueue {Q T I c R} _ {q items k w} x _ _.
Arguments lq_expose_slots_full {Q T I c R} _ {q items k w} _ _.
Arguments lq_expose_slots {Q T I c R} _ {q items k w} _ _.
Arguments lq_write {Q T I c R} _ {q items k w} ys _ _.
Arguments lq_consider_enqueued {Q T I c R} _ {q items k w} n _ _.
Arguments lq_dequeue_empty {Q T I c R} _ {q k w} _.
Arguments lq_dequeue {Q T I c R} _ {q x items k w} _.
Arguments lq_expose_items_empty {Q T I c R} _ {q k w} _.
Arguments lq_expose_items {Q T I c R} _ {q items k w} _ _.
Arguments lq_consider_dequeued {Q T I c R} _ {q items k w} n _ _.

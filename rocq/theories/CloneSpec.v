(** Specification for code that clones items: what it means that items are cloned once each
    and in order, and how queues, producers and consumers behave when a clone panics. *)
From Coq Require Import Bool List Arith.
From Verif Require Import Prelude QueueModel QueueSpec Traits Contracts CloneModel.
Import ListNotations.
Set Implicit Arguments.

(** The [Clone] of the other files: the identity. *)
Definition plain_clone {T} (x : T) (w : unit) : unit * option T := (w, Some x).

Section Clone.
  Context {W T : Type} (clone : T -> W -> W * option T).

  (** [clones xs w ys w']: cloning each of [xs] exactly once, in order and starting in the
      world [w], gives [ys] and ends in [w'] without a panic. *)
  Inductive clones : list T -> W -> list T -> W -> Prop :=
  | clones_nil : forall w, clones [] w [] w
  | clones_cons : forall x xs w w1 w' y ys,
      clone x w = (w1, Some y) -> clones xs w1 ys w' -> clones (x :: xs) w (y :: ys) w'.

  (** [breaks xs w ys w']: the same, but after the clones [ys] of the first items the clone of
      the next one panics, and no other is attempted. *)
  Inductive breaks : list T -> W -> list T -> W -> Prop :=
  | breaks_here : forall x xs w w', clone x w = (w', None) -> breaks (x :: xs) w [] w'
  | breaks_later : forall x xs w w1 w' y ys,
      clone x w = (w1, Some y) -> breaks xs w1 ys w' -> breaks (x :: xs) w (y :: ys) w'.

  (** ** Queues *)

  (** Answers of a queue; [UUnwound] is a panic of the user's [clone], [UUnwoundBuf] the same in
      a call that has a buffer to write to, with the contents of that buffer. *)
  Inductive uans : Type :=
  | UAns (r : qans T)
  | UUnwound
  | UUnwoundBuf (buf : list T).

  (** Performing a call on an implementation [I] whose [dequeue] is [deq]. *)
  Definition u_do {Q} (I : queue Q T) (deq : Q -> W -> outcome (Q * W * caught (option T)))
      (o : qop T) (q : Q) (w : W) : outcome (Q * W * uans) :=
    match o with
    | OpDequeue =>
        let* (q, w, r) := deq q w in
        Ret (q, w, match r with Done r => UAns (AItem r) | Unwound => UUnwound end)
    | OpBulkEnqueue b =>
        let* (q, w, r) := q_bulk_enqueue_cloning clone I b q w in
        Ret (q, w, match r with Done n => UAns (ANat n) | Unwound => UUnwound end)
    | OpBulkDequeue b =>
        let* (q, w, (b, r)) := q_bulk_dequeue_cloning clone I b q w in
        Ret (q, w, match r with Done n => UAns (ABuf b n) | Unwound => UUnwoundBuf b end)
    | o => let* (q, r) := q_do I o q in Ret (q, w, UAns r)
    end.

  (** The answers a queue of capacity [c] may give. [enqueue] and the [expose_*] and
      [consider_*] methods clone nothing. A [dequeue] clones the oldest item, which is gone
      whether or not that succeeds. The bulk methods clone as many items as they move; if a clone
      panics, none is moved. *)
  Definition u_answer (c : nat) (a : qabs T) (w : W) (o : qop T) (r : uans) (a' : qabs T) (w' : W) : Prop :=
    let items := qa_items a in
    match o, r with
    | OpDequeue, UAns (AItem None) => items = [] /\ a' = a /\ w' = w
    | OpDequeue, UAns (AItem (Some y)) =>
        exists x rest, items = x :: rest /\ clone x w = (w', Some y) /\
          a' = mk_qabs rest (qa_slots a) (qa_written a)
    | OpDequeue, UUnwound =>
        exists x rest, items = x :: rest /\ clone x w = (w', None) /\
          a' = mk_qabs rest (qa_slots a) (qa_written a)
    | OpBulkEnqueue buf, UAns (ANat n) =>
        n <= length buf /\ length items + n <= c /\ (n = 0 <-> length items = c \/ buf = []) /\
        exists ys, clones (firstn n buf) w ys w' /\ a' = mk_qabs (items ++ ys) 0 []
    | OpBulkEnqueue buf, UUnwound =>
        exists n ys, n <= length buf /\ length items + n <= c /\ breaks (firstn n buf) w ys w' /\
          a' = mk_qabs items 0 []
    | OpBulkDequeue buf, UAns (ABuf buf' n) =>
        n <= length buf /\ n <= length items /\ (n = 0 <-> items = [] \/ buf = []) /\
        exists ys, clones (firstn n items) w ys w' /\ buf' = ys ++ skipn n buf /\
          a' = mk_qabs (skipn n items) (qa_slots a) (qa_written a)
    | OpBulkDequeue buf, UUnwoundBuf buf' =>
        exists n ys, n <= length buf /\ n <= length items /\ breaks (firstn n items) w ys w' /\
          buf' = ys ++ skipn (length ys) buf /\ a' = a
    | (OpDequeue | OpBulkEnqueue _ | OpBulkDequeue _), _ => False
    | o, UAns r => q_answer c a o r a' /\ w' = w
    | _, _ => False
    end.

  (** A history of calls that respect the rules, continuing after every panic of [clone]. *)
  Inductive u_conforms {Q} (I : queue Q T) (deq : Q -> W -> outcome (Q * W * caught (option T))) (c : nat)
    : list (qop T) -> Q -> W -> qabs T -> Prop :=
  | u_conforms_nil : forall q w a, u_conforms I deq c [] q w a
  | u_conforms_broken : forall o ops q w a, ~ q_permitted a o -> u_conforms I deq c (o :: ops) q w a
  | u_conforms_step : forall o ops q w a q' w' r a',
      q_permitted a o -> u_do I deq o q w = Ret (q', w', r) -> u_answer c a w o r a' w' ->
      u_conforms I deq c ops q' w' a' -> u_conforms I deq c (o :: ops) q w a.

  Inductive u_history {Q} (I : queue Q T) (deq : Q -> W -> outcome (Q * W * caught (option T))) (c : nat)
    : Q -> W -> qabs T -> list (qop T * uans) -> Q -> W -> qabs T -> Prop :=
  | u_history_nil : forall q w a, u_history I deq c q w a [] q w a
  | u_history_step : forall q w a o q' w' r a' h q'' w'' a'',
      q_permitted a o -> u_do I deq o q w = Ret (q', w', r) -> u_answer c a w o r a' w' ->
      u_history I deq c q' w' a' h q'' w'' a'' ->
      u_history I deq c q w a ((o, r) :: h) q'' w'' a''.

  (** How many items a call put into the queue, took out of it, or lost, judged from the call
      and its answer. *)
  Definition u_entered (e : qop T * uans) : nat :=
    match e with
    | (OpEnqueue _, UAns (AItem None)) => 1
    | (OpBulkEnqueue _, UAns (ANat n)) => n
    | (OpConsiderEnqueued n, _) => n
    | _ => 0
    end.

  Definition u_taken (e : qop T * uans) : nat :=
    match e with
    | (OpDequeue, UAns (AItem (Some _))) => 1
    | (OpBulkDequeue _, UAns (ABuf _ n)) => n
    | (OpConsiderDequeued n, _) => n
    | _ => 0
    end.

  Definition u_lost (e : qop T * uans) : nat :=
    match e with (OpDequeue, UUnwound) => 1 | _ => 0 end.

  (** ** Consumers that are fed clones *)

  (** Cloning and feeding items one by one, until all are accepted, one is refused, or a clone
      panics: the state and world reached, the number of accepted items, and whether it was
      an error or a panic that ended it. *)
  Inductive stopped (E : Type) : Type :=
  | AllTaken
  | Refused (e : E)
  | Panicked.

  Fixpoint clone_feed {A F E} (M : machine A T F E) (xs : list T) (a : A) (w : W)
    : A * W * nat * stopped E :=
    match xs with
    | [] => (a, w, 0, AllTaken E)
    | x :: xs =>
        match clone x w with
        | (w, None) => (a, w, 0, Panicked E)
        | (w, Some y) =>
            match m_step M y a with
            | (a, Err e) => (a, w, 0, Refused e)
            | (a, Ok _) =>
                match clone_feed M xs a w with (a, w, n, r) => (a, w, S n, r) end
            end
        end
    end.

  (** Code that clones several items before it hands them over. [took]: every item of [xs] was
      cloned once and every clone was accepted. *)
  Definition took {A F E} (M : machine A T F E) (xs : list T) (a : A) (w : W) (a' : A) (w' : W) : Prop :=
    exists ys, clones xs w ys w' /\ m_feed M ys a = (a', length xs, None).

  (** [broke]: a clone panicked; the clones of the first [j] items had been accepted before, and
      no other clone was handed over. *)
  Definition broke {A F E} (M : machine A T F E) (xs : list T) (a : A) (w : W) (j : nat) (a' : A) (w' : W) : Prop :=
    exists ys, breaks xs w ys w' /\ j <= length ys /\ m_feed M (firstn j ys) a = (a', j, None).

  (** [refused]: item number [i] is the first that is refused, with the error [e]. Items up to some
      [m] had been cloned, once each. The consumer may refuse before it has seen the item (if
      [i = m]); then it would have refused any. *)
  Definition refused {A F E} (M : machine A T F E) (xs : list T) (a : A) (w : W) (i : nat) (e : E)
      (a' : A) (w' : W) : Prop :=
    i < length xs /\
    exists m ys a1, i <= m <= length xs /\ clones (firstn m xs) w ys w' /\
      m_feed M (firstn i ys) a = (a1, i, None) /\
      forall y, (i < m -> nth_error ys i = Some y) -> m_step M y a1 = (a', Err e).
End Clone.
Arguments uans : clear implicits.
Arguments UUnwound {T}.
Arguments AllTaken {E}.
Arguments Refused {E} e.
Arguments Panicked {E}.

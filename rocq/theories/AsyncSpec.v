(** What futures should amount to. *)
From Coq Require Import Bool List Arith.
From Coq.Init Require Import Byte.
From Verif Require Import Prelude Traits Contracts CodecModel AsyncModel AsyncAdaptorModel.
Import ListNotations.
Set Implicit Arguments.

(** The output of a future that is polled until it is ready. *)
Fixpoint run {S X} (f : fut S X) (s : S) : outcome (S * X) :=
  match f with
  | Fut p =>
      match p s with
      | Ret (s', Ready x) => Ret (s', x)
      | Ret (s', Pending _ f') => run f' s'
      | Panic => Panic
      | NoFuel => NoFuel
      end
  end.

(** Polling a future [n] times, or until it is ready. *)
Fixpoint polls {S X} (n : nat) (f : fut S X) (s : S) : outcome (S * poll_result X (fut S X)) :=
  match n with
  | 0 => Ret (s, Pending true f)
  | Datatypes.S n =>
      match poll f s with
      | Ret (s', Pending _ f') => polls n f' s'
      | o => o
      end
  end.

(** [block_on]: polls the future again when the waker has been called. Without that it sleeps forever. *)
Fixpoint block_on {S X} (fuel : nat) (f : fut S X) (s : S) : outcome (S * X) :=
  match fuel with
  | 0 => NoFuel
  | Datatypes.S fuel =>
      match poll f s with
      | Ret (s', Ready x) => Ret (s', x)
      | Ret (s', Pending true f') => block_on fuel f' s'
      | Ret (s', Pending false f') => NoFuel
      | Panic => Panic
      | NoFuel => NoFuel
      end
  end.

(** A future that returns [Pending] only in the way [Q]: never, if [Q] is never true; only after calling the waker,
    if [Q] is [eq true]. *)
Fixpoint pending_only {S X} (Q : bool -> Prop) (f : fut S X) : Prop :=
  match f with
  | Fut p => forall s, match p s with
                       | Ret (_, Pending w f') => Q w /\ pending_only Q f'
                       | _ => True
                       end
  end.

(** How often a future returns [Pending]. *)
Fixpoint pendings {S X} (f : fut S X) (s : S) : nat :=
  match f with
  | Fut p =>
      match p s with
      | Ret (s', Pending _ f') => Datatypes.S (pendings f' s')
      | _ => 0
      end
  end.

(** The states in which a future returns [Pending], which are those that others can observe. *)
Fixpoint suspended {S X} (f : fut S X) (s : S) : list S :=
  match f with
  | Fut p =>
      match p s with
      | Ret (s', Pending _ f') => s' :: suspended f' s'
      | _ => []
      end
  end.

(** Objects whose methods run to completion. *)
Section Blocking.
  Context {S T F E : Type}.
  Definition blocking_producer (P : a_producer S T F E) : producer S T F E := mk_producer (run (ap_produce P)).
  Definition blocking_buffered_producer (P : a_buffered_producer S T F E) : buffered_producer S T F E :=
    mk_buffered_producer (blocking_producer P) (run (ap_slurp P)).
  Definition blocking_bulk_producer (P : a_bulk_producer S T F E) : bulk_producer S T F E :=
    mk_bulk_producer (blocking_buffered_producer P) (run (ap_expose P)) (fun n => run (ap_consider P n))
      (fun buf => run (ap_bulk_produce P buf)).
  Definition blocking_consumer (C : a_consumer S T F E) : consumer S T F E :=
    mk_consumer (fun x => run (ac_consume C x)) (fun f => run (ac_close C f)).
  Definition blocking_buffered_consumer (C : a_buffered_consumer S T F E) : buffered_consumer S T F E :=
    mk_buffered_consumer (blocking_consumer C) (run (ac_flush C)).
  Definition blocking_bulk_consumer (C : a_bulk_consumer S T F E) : bulk_consumer S T F E :=
    mk_bulk_consumer (blocking_buffered_consumer C) (run (ac_expose C)) (ac_write C) (fun n => run (ac_consume_slots C n))
      (fun buf => run (ac_bulk_consume C buf)).
End Blocking.

(** Objects that answer every call alike, in every state. *)
Definition same_producer {S T F E} (P P' : producer S T F E) : Prop := forall s, p_produce P s = p_produce P' s.
Definition same_buffered_producer {S T F E} (P P' : buffered_producer S T F E) : Prop :=
  same_producer P P' /\ forall s, p_slurp P s = p_slurp P' s.
Definition same_bulk_producer {S T F E} (P P' : bulk_producer S T F E) : Prop :=
  same_buffered_producer P P' /\ (forall s, p_expose P s = p_expose P' s) /\ (forall n s, p_consider P n s = p_consider P' n s) /\
  (forall buf s, p_bulk_produce P buf s = p_bulk_produce P' buf s).
Definition same_consumer {S T F E} (C C' : consumer S T F E) : Prop :=
  (forall x s, c_consume C x s = c_consume C' x s) /\ (forall f s, c_close C f s = c_close C' f s).
Definition same_buffered_consumer {S T F E} (C C' : buffered_consumer S T F E) : Prop :=
  same_consumer C C' /\ forall s, c_flush C s = c_flush C' s.
Definition same_bulk_consumer {S T F E} (C C' : bulk_consumer S T F E) : Prop :=
  same_buffered_consumer C C' /\ (forall s, c_expose C s = c_expose C' s) /\ (forall ys s, c_write C ys s = c_write C' ys s) /\
  (forall n s, c_consume_slots C n s = c_consume_slots C' n s) /\ (forall buf s, c_bulk_consume C buf s = c_bulk_consume C' buf s).

(** Objects all of whose futures return [Pending] only in the way [Q]. *)
Definition producer_pending {S T F E} (Q : bool -> Prop) (P : a_producer S T F E) : Prop := pending_only Q (ap_produce P).
Definition buffered_producer_pending {S T F E} (Q : bool -> Prop) (P : a_buffered_producer S T F E) : Prop :=
  producer_pending Q P /\ pending_only Q (ap_slurp P).
Definition bulk_producer_pending {S T F E} (Q : bool -> Prop) (P : a_bulk_producer S T F E) : Prop :=
  buffered_producer_pending Q P /\ pending_only Q (ap_expose P) /\ (forall n, pending_only Q (ap_consider P n)) /\
  (forall buf, pending_only Q (ap_bulk_produce P buf)).
Definition consumer_pending {S T F E} (Q : bool -> Prop) (C : a_consumer S T F E) : Prop :=
  (forall x, pending_only Q (ac_consume C x)) /\ (forall f, pending_only Q (ac_close C f)).
Definition buffered_consumer_pending {S T F E} (Q : bool -> Prop) (C : a_buffered_consumer S T F E) : Prop :=
  consumer_pending Q C /\ pending_only Q (ac_flush C).
Definition bulk_consumer_pending {S T F E} (Q : bool -> Prop) (C : a_bulk_consumer S T F E) : Prop :=
  buffered_consumer_pending Q C /\ pending_only Q (ac_expose C) /\ (forall n, pending_only Q (ac_consume_slots C n)) /\
  (forall buf, pending_only Q (ac_bulk_consume C buf)).

(** An asynchronous codec that does, once completed, what a given codec does with the objects that run to completion. *)
Definition completes_encode {V} (a_encode : a_encode_fn V) (encode : encode_fn V) : Prop :=
  forall S F E (C : a_bulk_consumer S byte F E) v s, run (a_encode _ _ _ C v) s = encode _ _ _ (blocking_bulk_consumer C) v s.
Definition completes_decode {V O} (a_decode : a_decode_fn V O) (decode : decode_fn V O) : Prop :=
  forall S F E (P : a_bulk_producer S byte F E) s, run (a_decode _ _ _ P) s = decode _ _ _ (blocking_bulk_producer P) s.

(** [m] counts, in the states, how often a future returned [Pending]. *)
Definition counts {S X} (m : S -> nat) (f : fut S X) : Prop :=
  forall s s' x, run f s = Ret (s', x) -> m s' = m s + pendings f s.
Definition producer_counts {S T F E} (m : S -> nat) (P : a_producer S T F E) : Prop := counts m (ap_produce P).
Definition buffered_producer_counts {S T F E} (m : S -> nat) (P : a_buffered_producer S T F E) : Prop :=
  producer_counts m P /\ counts m (ap_slurp P).
Definition bulk_producer_counts {S T F E} (m : S -> nat) (P : a_bulk_producer S T F E) : Prop :=
  buffered_producer_counts m P /\ counts m (ap_expose P) /\ (forall n, counts m (ap_consider P n)) /\
  (forall buf, counts m (ap_bulk_produce P buf)).
Definition consumer_counts {S T F E} (m : S -> nat) (C : a_consumer S T F E) : Prop :=
  (forall x, counts m (ac_consume C x)) /\ (forall f, counts m (ac_close C f)).
Definition buffered_consumer_counts {S T F E} (m : S -> nat) (C : a_buffered_consumer S T F E) : Prop :=
  consumer_counts m C /\ counts m (ac_flush C).
Definition bulk_consumer_counts {S T F E} (m : S -> nat) (C : a_bulk_consumer S T F E) : Prop :=
  buffered_consumer_counts m C /\ counts m (ac_expose C) /\ (forall ys s, m (ac_write C ys s) = m s) /\
  (forall n, counts m (ac_consume_slots C n)) /\ (forall buf, counts m (ac_bulk_consume C buf)).

(** Codecs that return [Pending] only when the objects do. *)
Definition encode_pending {V} (a_encode : a_encode_fn V) : Prop :=
  forall Q S F E (C : a_bulk_consumer S byte F E), bulk_consumer_pending Q C -> forall v, pending_only Q (a_encode _ _ _ C v).
Definition encode_counts {V} (a_encode : a_encode_fn V) : Prop :=
  forall S F E (C : a_bulk_consumer S byte F E) m, bulk_consumer_counts m C -> forall v, counts m (a_encode _ _ _ C v).
Definition decode_pending {V O} (a_decode : a_decode_fn V O) : Prop :=
  forall Q S F E (P : a_bulk_producer S byte F E), bulk_producer_pending Q P -> pending_only Q (a_decode _ _ _ P).
Definition decode_counts {V O} (a_decode : a_decode_fn V O) : Prop :=
  forall S F E (P : a_bulk_producer S byte F E) m, bulk_producer_counts m P -> counts m (a_decode _ _ _ P).

(** A pipe that returned [Pending], for a producer with the items [xs] and then [l], and a consumer in the state [a]: some
    items [ys] have been produced and consumed, and exactly one of the two objects is in the middle of a call. *)
Definition pipe_interrupted {SP SC A T F PE CE} (P : a_producer SP T F PE) (R : SP -> list T -> res F PE -> nat -> Prop) (D : SP -> Prop)
    (C : a_consumer SC T F CE) (M : machine A T F CE) (RC : SC -> A -> nat -> list T -> Prop)
    (xs : list T) (l : res F PE) (a : A) (sp : SP) (sc : SC) : Prop :=
  exists ys rest a', xs = ys ++ rest /\ m_feed M ys a = (a', length ys, None) /\
   ((* [produce] is being called; the consumer has everything that was produced *)
    (exists sp0 k kk w, R sp0 rest l k /\ In sp (suspended (ap_produce P) sp0) /\ RC sc a' kk w) \/
    (* [consume] is being called with the item that was produced last *)
    (exists x rest', rest = x :: rest' /\ (exists k, R sp rest' l k) /\
       exists sc0 kk w, RC sc0 a' kk w /\ In sc (suspended (ac_consume C x) sc0)) \/
    (* [close] is being called *)
    (exists f, rest = [] /\ l = Ok f /\ D sp /\ exists sc0 kk w, RC sc0 a' kk w /\ In sc (suspended (ac_close C f) sc0))).

(** The same for [bulk_pipe]. *)
Definition bulk_pipe_interrupted {SP SC A T F PE CE} (P : a_bulk_producer SP T F PE) (R : SP -> list T -> res F PE -> nat -> Prop) (D : SP -> Prop)
    (C : a_bulk_consumer SC T F CE) (M : machine A T F CE) (RC : SC -> A -> nat -> list T -> Prop)
    (xs : list T) (l : res F PE) (a : A) (sp : SP) (sc : SC) : Prop :=
  exists ys rest a', xs = ys ++ rest /\ m_feed M ys a = (a', length ys, None) /\
   ((* [expose_items] is being called *)
    (exists sp0 k kk w, R sp0 rest l k /\ In sp (suspended (ap_expose P) sp0) /\ RC sc a' kk w) \/
    (* [bulk_consume] is being called with the exposed items *)
    (exists zs rest', rest = zs ++ rest' /\ zs <> [] /\ R sp rest l (length zs) /\
       exists sc0 kk w, RC sc0 a' kk w /\ In sc (suspended (ac_bulk_consume C zs) sc0)) \/
    (* [consider_produced] is being called; the consumer has [n] more items than the producer has been told *)
    (exists zs rest' n a'', rest = zs ++ rest' /\ 1 <= n <= length zs /\ m_feed M (firstn n zs) a' = (a'', n, None) /\
       (exists kk w, RC sc a'' kk w) /\ exists sp0, R sp0 rest l (length zs) /\ In sp (suspended (ap_consider P n) sp0)) \/
    (* [close] is being called *)
    (exists f, rest = [] /\ l = Ok f /\ D sp /\ exists sc0 kk w, RC sc0 a' kk w /\ In sc (suspended (ac_close C f) sc0))).

(** Objects that do nothing but wait before they return [Pending]: the state then still stands for the same items. *)
Definition waiting_producer {S T F E} (P : a_bulk_producer S T F E) (R : S -> list T -> res F E -> nat -> Prop) : Prop :=
  forall s xs l k s', R s xs l k ->
    In s' (suspended (ap_produce P) s) \/ In s' (suspended (ap_slurp P) s) \/ In s' (suspended (ap_expose P) s) \/
    (exists n, In s' (suspended (ap_consider P n) s)) \/ (exists buf, In s' (suspended (ap_bulk_produce P buf) s)) ->
    exists k', R s' xs l k'.
Definition waiting_consumer {S A T F E} (C : a_bulk_consumer S T F E) (R : S -> A -> nat -> list T -> Prop) : Prop :=
  forall s a k w s', R s a k w ->
    (exists x, In s' (suspended (ac_consume C x) s)) \/ (exists f, In s' (suspended (ac_close C f) s)) \/ In s' (suspended (ac_flush C) s) \/
    In s' (suspended (ac_expose C) s) \/ (exists n, In s' (suspended (ac_consume_slots C n) s)) \/
    (exists buf, In s' (suspended (ac_bulk_consume C buf) s)) ->
    exists k' w', R s' a k' w'.

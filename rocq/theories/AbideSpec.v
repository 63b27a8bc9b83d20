(** The rule of lib.rs 33: a trait method may be called only after the future of every earlier call to the same value has been polled
    to completion. *)
From Coq Require Import Bool List Arith.
From Coq.Init Require Import Byte.
From Verif Require Import Prelude Traits Contracts AdaptorSpec IoModel AsyncModel AsyncSpec AsyncAdaptorModel AsyncMergeModel AsyncIoModel SharedModel.
Import ListNotations.
Set Implicit Arguments.

(** ** Objects that are watched *)

(** Where an object stands: no call has begun that is not complete; one has; or another one was begun in spite of that. *)
Inductive standing : Type := AtRest | InCall | Misused.

(** The future of a call that has begun. *)
Fixpoint watching {S X} (f : fut S X) : fut (S * standing) X :=
  match f with
  | Fut p =>
      Fut (fun st => match p (fst st) with
                     | Ret (s, Ready x) => Ret ((s, match snd st with Misused => Misused | _ => AtRest end), Ready x)
                     | Ret (s, Pending w f') => Ret ((s, match snd st with Misused => Misused | _ => InCall end), Pending w (watching f'))
                     | Panic => Panic
                     | NoFuel => NoFuel
                     end)
  end.

(** A call begins when its future is first polled. *)
Definition begin_call (st : standing) : standing := match st with AtRest => InCall | _ => Misused end.
Definition watch {S X} (f : fut S X) : fut (S * standing) X :=
  Fut (fun st => poll (watching f) (fst st, begin_call (snd st))).

(** Code that is not asynchronous: it begins and is complete at once. *)
Definition touch (st : standing) : standing := match st with AtRest => AtRest | _ => Misused end.

Definition watched_producer {S T F E} (P : a_producer S T F E) : a_producer (S * standing) T F E := mk_a_producer (watch (ap_produce P)).
Definition watched_buffered_producer {S T F E} (P : a_buffered_producer S T F E) : a_buffered_producer (S * standing) T F E :=
  mk_a_buffered_producer (watched_producer P) (watch (ap_slurp P)).
Definition watched_bulk_producer {S T F E} (P : a_bulk_producer S T F E) : a_bulk_producer (S * standing) T F E :=
  mk_a_bulk_producer (watched_buffered_producer P) (watch (ap_expose P)) (fun n => watch (ap_consider P n)) (fun buf => watch (ap_bulk_produce P buf)).
Definition watched_consumer {S T F E} (C : a_consumer S T F E) : a_consumer (S * standing) T F E :=
  mk_a_consumer (fun x => watch (ac_consume C x)) (fun f => watch (ac_close C f)).
Definition watched_buffered_consumer {S T F E} (C : a_buffered_consumer S T F E) : a_buffered_consumer (S * standing) T F E :=
  mk_a_buffered_consumer (watched_consumer C) (watch (ac_flush C)).
Definition watched_bulk_consumer {S T F E} (C : a_bulk_consumer S T F E) : a_bulk_consumer (S * standing) T F E :=
  mk_a_bulk_consumer (watched_buffered_consumer C) (watch (ac_expose C)) (fun ys st => (ac_write C ys (fst st), touch (snd st)))
    (fun n => watch (ac_consume_slots C n)) (fun buf => watch (ac_bulk_consume C buf)).
Definition watched_reader {S T} (Rd : a_reader S T) : a_reader (S * standing) T := mk_a_reader (fun buf => watch (ar_read Rd buf)).
Definition watched_buf_reader {S T} (Rd : a_buf_reader S T) : a_buf_reader (S * standing) T :=
  mk_a_buf_reader (watched_reader Rd) (watch (ar_fill_buf Rd))
    (fun n st => let* s := ar_consume Rd n (fst st) in Ret (s, touch (snd st))).
Definition watched_writer {S T} (W : a_writer S T) : a_writer (S * standing) T :=
  mk_a_writer (fun buf => watch (aw_write W buf)) (watch (aw_flush W)) (watch (aw_close W)).

(** ** Predicates that hold between calls *)

(** [clean free ok f s]: polling [f] from the state [s] leads only to states with [ok] while it is pending, and to a state with [free] when it is
    ready. *)
Fixpoint clean {S X} (free ok : S -> Prop) (f : fut S X) (s : S) : Prop :=
  match f with
  | Fut p =>
      match p s with
      | Ret (s', Ready _) => free s'
      | Ret (s', Pending _ f') => ok s' /\ clean free ok f' s'
      | Panic | NoFuel => True
      end
  end.
Definition keeps {S X} (free ok : S -> Prop) (f : fut S X) : Prop := forall s, free s -> clean free ok f s.

Definition keeps_producer {S T F E} (free ok : S -> Prop) (P : a_producer S T F E) : Prop := keeps free ok (ap_produce P).
Definition keeps_buffered_producer {S T F E} (free ok : S -> Prop) (P : a_buffered_producer S T F E) : Prop :=
  keeps_producer free ok P /\ keeps free ok (ap_slurp P).
Definition keeps_bulk_producer {S T F E} (free ok : S -> Prop) (P : a_bulk_producer S T F E) : Prop :=
  keeps_buffered_producer free ok P /\ keeps free ok (ap_expose P) /\ (forall n, keeps free ok (ap_consider P n)) /\
  forall buf, keeps free ok (ap_bulk_produce P buf).
Definition keeps_consumer {S T F E} (free ok : S -> Prop) (C : a_consumer S T F E) : Prop :=
  (forall x, keeps free ok (ac_consume C x)) /\ forall f, keeps free ok (ac_close C f).
Definition keeps_buffered_consumer {S T F E} (free ok : S -> Prop) (C : a_buffered_consumer S T F E) : Prop :=
  keeps_consumer free ok C /\ keeps free ok (ac_flush C).
Definition keeps_bulk_consumer {S T F E} (free ok : S -> Prop) (C : a_bulk_consumer S T F E) : Prop :=
  keeps_buffered_consumer free ok C /\ keeps free ok (ac_expose C) /\ (forall ys s, free s -> free (ac_write C ys s)) /\
  (forall n, keeps free ok (ac_consume_slots C n)) /\ forall buf, keeps free ok (ac_bulk_consume C buf).
Definition keeps_reader {S T} (free ok : S -> Prop) (Rd : a_reader S T) : Prop := forall buf, keeps free ok (ar_read Rd buf).
Definition keeps_buf_reader {S T} (free ok : S -> Prop) (Rd : a_buf_reader S T) : Prop :=
  keeps_reader free ok Rd /\ keeps free ok (ar_fill_buf Rd) /\ forall n s s', free s -> ar_consume Rd n s = Ret s' -> free s'.
Definition keeps_writer {S T} (free ok : S -> Prop) (W : a_writer S T) : Prop :=
  (forall buf, keeps free ok (aw_write W buf)) /\ keeps free ok (aw_flush W) /\ keeps free ok (aw_close W).

(** Codecs: whatever holds between the calls of their consumer or producer. *)
Definition keeps_encode {V} (encode : a_encode_fn V) : Prop :=
  forall S F E (free ok : S -> Prop) (C : a_bulk_consumer S byte F E), keeps_bulk_consumer free ok C -> forall v, keeps free ok (encode _ _ _ C v).
Definition keeps_decode {V O} (decode : a_decode_fn V O) : Prop :=
  forall S F E (free ok : S -> Prop) (P : a_bulk_producer S byte F E), keeps_bulk_producer free ok P -> keeps free ok (decode _ _ _ P).

(** ** Callers that follow the rule *)

(** Each call is polled at most so often; if it is not ready by then, its future is dropped, and no more calls are made. Gives the state, and
    whether a future was dropped. *)
Fixpoint abiding {S O A} (call : O -> fut S A) (ops : list (O * nat)) (s : S) : outcome (S * bool) :=
  match ops with
  | [] => Ret (s, false)
  | (o, n) :: ops =>
      let* (s, r) := polls n (call o) s in
      match r with
      | Ready _ => abiding call ops s
      | Pending _ _ => Ret (s, true)
      end
  end.

(** The calls of the traits. *)
Definition ap_future {S T F E} (P : a_bulk_producer S T F E) (o : pop T) : fut S (pans T F E) :=
  match o with
  | PProduce => let! r := ap_produce P in ret (PAItem r)
  | PSlurp => let! r := ap_slurp P in ret (PAUnit r)
  | PExpose => let! r := ap_expose P in ret (PASlice r)
  | PConsider n => let! r := ap_consider P n in ret (PAUnit r)
  | PBulkProduce buf => let! (b, r) := ap_bulk_produce P buf in ret (PABuf b r)
  end.
Definition ac_future {S T F E} (C : a_bulk_consumer S T F E) (o : cop T F) : fut S (cans E) :=
  match o with
  | CConsume x => let! r := ac_consume C x in ret (CAUnit r)
  | CClose f => let! r := ac_close C f in ret (CAUnit r)
  | CFlush => let! r := ac_flush C in ret (CAUnit r)
  | CExpose => let! r := ac_expose C in ret (CASlots r)
  | CWrite ys => sync (fun s => Ret (ac_write C ys s, CANone))
  | CConsumeSlots n => let! r := ac_consume_slots C n in ret (CAUnit r)
  | CBulkConsume buf => let! r := ac_bulk_consume C buf in ret (CANat r)
  end.
Definition abp_future {S T F E} (P : a_buffered_producer S T F E) (o : bpop) : fut S (bpans T F E) :=
  match o with
  | BProduce => let! r := ap_produce P in ret (BPItem r)
  | BSlurp => let! r := ap_slurp P in ret (BPUnit r)
  end.
Definition abc_future {S T F E} (C : a_buffered_consumer S T F E) (o : bcop T F) : fut S (res unit E) :=
  match o with
  | BConsume x => ac_consume C x
  | BClose f => ac_close C f
  | BFlush => ac_flush C
  end.

(** [never_misuses call inner]: such a caller does not lead to misuse of the object inside, at rest in the beginning, and leaves it at rest if
    it has dropped nothing. *)
Definition never_misuses {S O A} (call : O -> fut S A) (inner : S -> standing) : Prop :=
  forall ops s s' dropped, inner s = AtRest -> abiding call ops s = Ret (s', dropped) ->
    inner s' <> Misused /\ (dropped = false -> inner s' = AtRest).

(** ** Merge keeps the futures of its producers *)
Definition merge_ok {S1 S2 T F E} (standing1 : S1 -> standing) (standing2 : S2 -> standing) (m : a_merge S1 S2 T F E) : Prop :=
  (forall o, a_future1 m = Some o -> standing1 (o_producer o) <> Misused) /\ forall o, a_future2 m = Some o -> standing2 (o_producer o) <> Misused.

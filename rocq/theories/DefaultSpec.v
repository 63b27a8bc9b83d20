(** Specification of consumers whose methods call the user's [Default], against state machines. *)
From Coq Require Import Bool List Arith.
From Verif Require Import Prelude Traits Contracts CloneModel CloneSpec ClosureSpec DefaultModel.
Import ListNotations.
Set Implicit Arguments.

(** The [Default] of the other files: a constant. *)
Definition plain_default {T} (x : T) (w : unit) : unit * option T := (w, Some x).

Section Calls.
  Context {W T : Type} (default : W -> W * option T).

  (** Calling [default] some number of times leads from the world [w] to [w'], without a panic. *)
  Inductive makes : W -> W -> Prop :=
  | makes_none : forall w, makes w w
  | makes_more : forall w w1 w' y, default w = (w1, Some y) -> makes w1 w' -> makes w w'.

  (** The same, and then a call that panics. *)
  Inductive trips : W -> W -> Prop :=
  | trips_here : forall w w', default w = (w', None) -> trips w w'
  | trips_later : forall w w1 w' y, default w = (w1, Some y) -> trips w1 w' -> trips w w'.
End Calls.

(** The contract of a consumer: as [lawful_consumer_core], except that [consume] and
    [expose_slots] may call [default], and unwind if it panics. A [consume] that unwinds changes the state of
    the machine by [dent] and nothing else; an [expose_slots] that unwinds leaves no slots on offer. Items that fit
    into the slots on offer are accepted. *)
Record takes {W S A T F E} (default : W -> W * option T) (U : u_consumer W S T F E) (M : machine A T F E) (dent : A -> A)
    (R : S -> A -> nat -> list T -> Prop) (D : S -> A -> Prop) : Prop := {
  tk_wf : forall s a k v, R s a k v -> length v <= k;
  tk_forget : forall s a k v, R s a k v -> R s a 0 [];
  tk_consume : forall s a k v x w, R s a k v ->
    (exists s' w', u_consume U x s w = Ret (s', w', Done (snd (m_step M x a))) /\ makes default w w' /\
       match m_step M x a with (a', Ok _) => R s' a' 0 [] | (a', Err _) => D s' a' end) \/
    (exists s' w', u_consume U x s w = Ret (s', w', Unwound) /\ trips default w w' /\ R s' (dent a) 0 []);
  tk_expose : forall s a k v w, R s a k v ->
    (exists s' w' n, u_expose U s w = Ret (s', w', Done (Ok n)) /\ makes default w w' /\ 1 <= n /\ R s' a n []) \/
    (exists s' w' e a', u_expose U s w = Ret (s', w', Done (Err e)) /\ makes default w w' /\
       (forall x, m_step M x a = (a', Err e)) /\ D s' a') \/
    (exists s' w', u_expose U s w = Ret (s', w', Unwound) /\ trips default w w' /\ R s' a 0 []);
  tk_close : forall s a k v f, R s a k v ->
    exists s', c_close (u_calm U) f s = Ret (s', snd (m_finish M f a)) /\ D s' (fst (m_finish M f a));
  tk_flush : forall s a k v, R s a k v ->
    exists s', c_flush (u_calm U) s = Ret (s', snd (m_flush M a)) /\
      match m_flush M a with (a', Ok _) => R s' a' k v | (a', Err _) => D s' a' end;
  tk_write : forall s a k v ys, R s a k v -> length ys <= k -> R (c_write (u_calm U) ys s) a k (overlay ys v);
  tk_consume_slots : forall s a k v n, R s a k v -> 1 <= k -> n <= length v ->
    exists s' a', m_feed M (firstn n v) a = (a', n, None) /\ c_consume_slots (u_calm U) n s = Ret (s', Ok tt) /\ R s' a' (k - n) (skipn n v)
}.
Arguments tk_wf {W S A T F E default U M dent R D} _ {s a k v} _.
Arguments tk_forget {W S A T F E default U M dent R D} _ {s a k v} _.
Arguments tk_consume {W S A T F E default U M dent R D} _ {s a k v} x w _.
Arguments tk_expose {W S A T F E default U M dent R D} _ {s a k v} w _.
Arguments tk_close {W S A T F E default U M dent R D} _ {s a k v} f _.
Arguments tk_flush {W S A T F E default U M dent R D} _ {s a k v} _.
Arguments tk_write {W S A T F E default U M dent R D} _ {s a k v} ys _ _.
Arguments tk_consume_slots {W S A T F E default U M dent R D} _ {s a k v} n _ _ _.

(** Calls, with panics of [default] and [clone] caught. *)
Definition d_do {W S T F E} (clone : T -> W -> W * option T) (U : u_consumer W S T F E) (o : cop T F) (s : S) (w : W)
  : outcome (S * W * caught (cans E)) :=
  match o with
  | CConsume x =>
      let* (s, w, r) := u_consume U x s w in
      Ret (s, w, match r with Done r => Done (CAUnit r) | Unwound => Unwound end)
  | CExpose =>
      let* (s, w, r) := u_expose U s w in
      Ret (s, w, match r with Done r => Done (CASlots r) | Unwound => Unwound end)
  | CBulkConsume buf =>
      let* (s, w, r) := bulk_consume_u U clone buf s w in
      Ret (s, w, match r with Done r => Done (CANat r) | Unwound => Unwound end)
  | CClose f => let* (s, r) := c_close (u_calm U) f s in Ret (s, w, Done (CAUnit r))
  | CFlush => let* (s, r) := c_flush (u_calm U) s in Ret (s, w, Done (CAUnit r))
  | CWrite ys => Ret (c_write (u_calm U) ys s, w, Done CANone)
  | CConsumeSlots n => let* (s, r) := c_consume_slots (u_calm U) n s in Ret (s, w, Done (CAUnit r))
  end.

Section Answers.
  Context {W A T F E : Type} (default : W -> W * option T) (clone : T -> W -> W * option T) (M : machine A T F E) (dent : A -> A).

  (** The answers that are allowed. [consume] and [expose_slots] answer as ever, or a call of [default]
      panics; [bulk_consume] may call [default], then clones the items it takes once each, and takes none of them if anything
      panics; the other methods call nothing, and [consume_slots] does not fail. *)
  Definition d_answer (b : cabs A T) (w : W) (o : cop T F) (r : caught (cans E)) (b' : cabs A T) (w' : W) : Prop :=
    match b with
    | CEnded _ => False
    | CActive a _ _ =>
        match o, r with
        | (CConsume _ | CExpose), Done r => makes default w w' /\ c_answer M b o r b'
        | CConsume _, Unwound => trips default w w' /\ b' = CActive (dent a) 0 []
        | CExpose, Unwound => trips default w w' /\ b' = CActive a 0 []
        | CBulkConsume buf, Done (CANat (Ok n)) =>
            exists w1 ys a', makes default w w1 /\ 1 <= n <= length buf /\ clones clone (firstn n buf) w1 ys w' /\
              m_feed M ys a = (a', n, None) /\ b' = CActive a' 0 []
        | CBulkConsume _, Done (CANat (Err e)) =>
            makes default w w' /\ exists a', (forall x, m_step M x a = (a', Err e)) /\ b' = CEnded a'
        | CBulkConsume buf, Unwound =>
            (trips default w w' \/
             (exists w1 n ys, makes default w w1 /\ n <= length buf /\ breaks clone (firstn n buf) w1 ys w')) /\
            b' = CActive a 0 []
        | CBulkConsume _, _ => False
        | CConsumeSlots _, Done (CAUnit (Err _)) => False
        | _, Done r => w' = w /\ c_answer M b o r b'
        | _, Unwound => False
        end
    end.

  Context {S : Type} (U : u_consumer W S T F E).

  Inductive d_conforms : list (cop T F) -> S -> W -> cabs A T -> Prop :=
  | d_conforms_nil : forall s w b, d_conforms [] s w b
  | d_conforms_broken : forall o ops s w b, ~ c_permitted b o -> d_conforms (o :: ops) s w b
  | d_conforms_step : forall o ops s w b s' w' r b', c_permitted b o -> d_do clone U o s w = Ret (s', w', r) ->
      d_answer b w o r b' w' -> d_conforms ops s' w' b' -> d_conforms (o :: ops) s w b.

  Inductive d_history : S -> W -> cabs A T -> list (cop T F * caught (cans E)) -> S -> W -> cabs A T -> Prop :=
  | d_history_nil : forall s w b, d_history s w b [] s w b
  | d_history_step : forall s w b o s1 w1 r b1 h s2 w2 b2, c_permitted b o -> d_do clone U o s w = Ret (s1, w1, r) ->
      d_answer b w o r b1 w1 -> d_history s1 w1 b1 h s2 w2 b2 -> d_history s w b ((o, r) :: h) s2 w2 b2.
End Answers.

(** A machine that keeps a list of what it has accepted. *)
Record logs {A T F E} (M : machine A T F E) (dent : A -> A) (log : A -> list T) : Prop := {
  lg_step : forall x a, log (fst (m_step M x a)) = match snd (m_step M x a) with Ok _ => log a ++ [x] | Err _ => log a end;
  lg_finish : forall f a, log (fst (m_finish M f a)) = log a;
  lg_flush : forall a, log (fst (m_flush M a)) = log a;
  lg_dent : forall a, log (dent a) = log a
}.

Definition abs_state {A T} (b : cabs A T) : A := match b with CActive a _ _ => a | CEnded a => a end.

(** How many calls of [consume] were cut short by a panic. *)
Definition d_torn {T F E} (h : list (cop T F * caught (cans E))) : nat :=
  length (filter (fun e => match e with (CConsume _, Unwound) => true | _ => false end) h).

Section Pours.
  Context {W A T F E : Type} (default : W -> W * option T) (M : machine A T F E) (dent : A -> A).

  (** Feeding items one by one, going on after each panic: each item is accepted ([kept]), or gone with a panic ([lost]), or
      refused; the items after a refused one are left. *)
  Inductive pours : list T -> A -> W -> list T -> list T -> A -> W -> option (E * list T) -> Prop :=
  | pours_nil : forall a w, pours [] a w [] [] a w None
  | pours_kept : forall x xs a w a1 w1 kept lost a' w' r,
      makes default w w1 -> m_step M x a = (a1, Ok tt) -> pours xs a1 w1 kept lost a' w' r -> pours (x :: xs) a w (x :: kept) lost a' w' r
  | pours_lost : forall x xs a w w1 kept lost a' w' r,
      trips default w w1 -> pours xs (dent a) w1 kept lost a' w' r -> pours (x :: xs) a w kept (x :: lost) a' w' r
  | pours_refused : forall x xs a w a' w' e,
      makes default w w' -> m_step M x a = (a', Err e) -> pours (x :: xs) a w [] [] a' w' (Some (e, xs)).
End Pours.

(** How a pipe ends that poured its items into a consumer: the consumer is closed, or the producer failed, or the consumer refused an item. *)
Definition pour_ends {SP SC A T F PE CE} (M : machine A T F CE) (RP : SP -> list T -> res F PE -> nat -> Prop) (DP : SP -> Prop)
    (RC : SC -> A -> nat -> list T -> Prop) (DC : SC -> A -> Prop) (l : res F PE) (sp : SP) (sc : SC) (a : A)
    (r : res unit (pipe_error PE CE)) (stop : option (CE * list T)) : Prop :=
  match stop with
  | None => r = pipe_end M l a /\ DP sp /\ match l with Ok fin => DC sc (fst (m_finish M fin a)) | Err _ => RC sc a 0 [] end
  | Some (e, rest) => r = Err (PipeConsumer e) /\ RP sp rest l 0 /\ DC sc a
  end.

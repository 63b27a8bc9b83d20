(** The documented contracts of producers and consumers, as specifications that do
    not mention any implementation. *)
From Coq Require Import Bool List Arith.
From Verif Require Import Prelude Traits.
Import ListNotations.
Set Implicit Arguments.

(** * Producers

    A producer denotes a sequence: items, then one last value, which is a final
    value or an error. *)

(** The specification state of a producer: the items still to come, the last value,
    and how many of the coming items have been exposed; or: it has ended. *)
Inductive pabs (T F E : Type) : Type :=
| PActive (xs : list T) (last : res F E) (k : nat)
| PEnded.
Arguments PActive {T F E} xs last k.
Arguments PEnded {T F E}.

(** How the last value is reported. *)
Definition report_last {X F E : Type} (last : res F E) : res (X + F) E :=
  match last with Ok f => Ok (inr f) | Err e => Err e end.

(** Calls of a client, and answers. *)
Inductive pop (T : Type) : Type :=
| PProduce
| PSlurp
| PExpose
| PConsider (n : nat)
| PBulkProduce (buf : list T).
Arguments PProduce {T}.
Arguments PSlurp {T}.
Arguments PExpose {T}.
Arguments PConsider {T} n.

Inductive pans (T F E : Type) : Type :=
| PAItem (r : res (T + F) E)
| PAUnit (r : res unit E)
| PASlice (r : res (list T + F) E)
| PABuf (buf : list T) (r : res (nat + F) E).
Arguments PAItem {T F E} r.
Arguments PAUnit {T F E} r.
Arguments PASlice {T F E} r.
Arguments PABuf {T F E} buf r.

(** The rules: no call after the end; only exposed items are marked as produced (and
    something must be exposed at all); bulk calls get a non-empty buffer. *)
Definition p_permitted {T F E} (a : pabs T F E) (o : pop T) : Prop :=
  match a, o with
  | PEnded, _ => False
  | PActive _ _ k, PConsider n => 1 <= k /\ n <= k
  | PActive _ _ _, PBulkProduce buf => buf <> []
  | PActive _ _ _, _ => True
  end.

(** Permitted answers. The sizes of exposed slices are left open. [slurp] has no
    effect on the sequence, but may report an error that is next in line. *)
Definition p_answer {T F E} (a : pabs T F E) (o : pop T) (r : pans T F E) (a' : pabs T F E) : Prop :=
  match a with
  | PEnded => False
  | PActive xs last k =>
      match o, r with
      | PProduce, PAItem r =>
          match xs with
          | x :: xs => r = Ok (inl x) /\ a' = PActive xs last (k - 1)
          | [] => r = report_last last /\ a' = PEnded
          end
      | PSlurp, PAUnit r =>
          (r = Ok tt /\ a' = PActive xs last k) \/
          (exists e, xs = [] /\ last = Err e /\ r = Err e /\ a' = PEnded)
      | PExpose, PASlice r =>
          match xs with
          | _ :: _ => exists ys rest, ys <> [] /\ xs = ys ++ rest /\
              r = Ok (inl ys) /\ a' = PActive xs last (length ys)
          | [] => r = report_last last /\ a' = PEnded
          end
      | PConsider n, PAUnit r => r = Ok tt /\ a' = PActive (skipn n xs) last (k - n)
      | PBulkProduce buf, PABuf buf' r =>
          match xs with
          | _ :: _ => exists n, 1 <= n <= length buf /\ n <= length xs /\
              r = Ok (inl n) /\ buf' = firstn n xs ++ skipn n buf /\
              a' = PActive (skipn n xs) last 0
          | [] => r = report_last last /\ buf' = buf /\ a' = PEnded
          end
      | _, _ => False
      end
  end.

Definition p_do {S T F E} (P : bulk_producer S T F E) (o : pop T) (s : S) : outcome (S * pans T F E) :=
  match o with
  | PProduce => let* (s, r) := p_produce P s in Ret (s, PAItem r)
  | PSlurp => let* (s, r) := p_slurp P s in Ret (s, PAUnit r)
  | PExpose => let* (s, r) := p_expose P s in Ret (s, PASlice r)
  | PConsider n => let* (s, r) := p_consider P n s in Ret (s, PAUnit r)
  | PBulkProduce buf => let* (s, (buf, r)) := p_bulk_produce P buf s in Ret (s, PABuf buf r)
  end.

(** [p_conforms P ops s a]: calling [ops] on [s] answers as the sequence [a] demands,
    call by call, for as long as the caller respects the rules. *)
Inductive p_conforms {S T F E} (P : bulk_producer S T F E) : list (pop T) -> S -> pabs T F E -> Prop :=
| p_conforms_nil : forall s a, p_conforms P [] s a
| p_conforms_broken : forall o ops s a, ~ p_permitted a o -> p_conforms P (o :: ops) s a
| p_conforms_step : forall o ops s a s' r a',
    p_permitted a o -> p_do P o s = Ret (s', r) -> p_answer a o r a' ->
    p_conforms P ops s' a' -> p_conforms P (o :: ops) s a.

(** A rule-respecting history with its answers. *)
Inductive p_history {S T F E} (P : bulk_producer S T F E)
  : S -> pabs T F E -> list (pop T * pans T F E) -> S -> pabs T F E -> Prop :=
| p_history_nil : forall s a, p_history P s a [] s a
| p_history_step : forall s a o s' r a' h s'' a'',
    p_permitted a o -> p_do P o s = Ret (s', r) -> p_answer a o r a' ->
    p_history P s' a' h s'' a'' -> p_history P s a ((o, r) :: h) s'' a''.

(** The items that a sequence of calls took out of the producer: items returned by
    [produce], written by [bulk_produce], or exposed and then marked as produced.
    [shown] is the most recently exposed slice, minus what was taken since. *)
Fixpoint p_emitted {T F E} (shown : list T) (h : list (pop T * pans T F E)) : list T :=
  match h with
  | [] => []
  | (PProduce, PAItem (Ok (inl x))) :: h => x :: p_emitted (skipn 1 shown) h
  | (PExpose, PASlice (Ok (inl ys))) :: h => p_emitted ys h
  | (PConsider n, _) :: h => firstn n shown ++ p_emitted (skipn n shown) h
  | (PBulkProduce _, PABuf buf (Ok (inl n))) :: h => firstn n buf ++ p_emitted [] h
  | _ :: h => p_emitted shown h
  end.

(** The last value that a sequence of calls obtained, if any. *)
Fixpoint p_last {T F E} (h : list (pop T * pans T F E)) : option (res F E) :=
  match h with
  | [] => None
  | (_, r) :: h =>
      match r with
      | PAItem (Ok (inr f)) | PASlice (Ok (inr f)) | PABuf _ (Ok (inr f)) => Some (Ok f)
      | PAItem (Err e) | PASlice (Err e) | PABuf _ (Err e) | PAUnit (Err e) => Some (Err e)
      | _ => p_last h
      end
  end.

(** The contract as a relation between implementation states and sequences, used
    for everything generic over producers: [R s xs last k]; [D s] holds for
    states after the end. [slurp] is treated separately because some
    implementations break its contract. *)
Record lawful_producer_core {S T F E} (P : bulk_producer S T F E)
    (R : S -> list T -> res F E -> nat -> Prop) (D : S -> Prop) : Prop := {
  lp_wf : forall s xs l k, R s xs l k -> k <= length xs;
  lp_forget : forall s xs l k, R s xs l k -> R s xs l 0;
  lp_produce : forall s x xs l k, R s (x :: xs) l k ->
    exists s', p_produce P s = Ret (s', Ok (inl x)) /\ R s' xs l (k - 1);
  lp_produce_last : forall s l k, R s [] l k ->
    exists s', p_produce P s = Ret (s', report_last l) /\ D s';
  lp_expose : forall s xs l k, R s xs l k -> xs <> [] ->
    exists s' ys rest, p_expose P s = Ret (s', Ok (inl ys)) /\ ys <> [] /\ xs = ys ++ rest /\
      R s' xs l (length ys);
  lp_expose_last : forall s l k, R s [] l k ->
    exists s', p_expose P s = Ret (s', report_last l) /\ D s';
  lp_consider : forall s xs l k n, R s xs l k -> 1 <= k -> n <= k ->
    exists s', p_consider P n s = Ret (s', Ok tt) /\ R s' (skipn n xs) l (k - n)
}.
Arguments lp_wf {S T F E P R D} _ {s xs l k} _.
Arguments lp_forget {S T F E P R D} _ {s xs l k} _.
Arguments lp_produce {S T F E P R D} _ {s x xs l k} _.
Arguments lp_produce_last {S T F E P R D} _ {s l k} _.
Arguments lp_expose {S T F E P R D} _ {s xs l k} _ _.
Arguments lp_expose_last {S T F E P R D} _ {s l k} _.
Arguments lp_consider {S T F E P R D} _ {s xs l k} n _ _ _.

(** The contract of [bulk_produce]: how many items are copied is left open. *)
Definition lawful_bulk_produce {S T F E} (P : bulk_producer S T F E)
    (R : S -> list T -> res F E -> nat -> Prop) (D : S -> Prop) : Prop :=
  forall s xs l k buf, R s xs l k -> buf <> [] ->
    match xs with
    | _ :: _ => exists s' n,
        p_bulk_produce P buf s = Ret (s', (firstn n xs ++ skipn n buf, Ok (inl n))) /\
        1 <= n <= length buf /\ n <= length xs /\ R s' (skipn n xs) l 0
    | [] => exists s', p_bulk_produce P buf s = Ret (s', (buf, report_last l)) /\ D s'
    end.

Record lawful_producer {S T F E} (P : bulk_producer S T F E)
    (R : S -> list T -> res F E -> nat -> Prop) (D : S -> Prop) : Prop := {
  lp_core :> lawful_producer_core P R D;
  lp_bulk : lawful_bulk_produce P R D
}.
Arguments lp_core {S T F E P R D} _.
Arguments lp_bulk {S T F E P R D} _ {s xs l k} buf _ _.

Definition lawful_slurp {S T F E} (P : buffered_producer S T F E)
    (R : S -> list T -> res F E -> nat -> Prop) (D : S -> Prop) : Prop :=
  forall s xs l k, R s xs l k ->
    (exists s', p_slurp P s = Ret (s', Ok tt) /\ R s' xs l k) \/
    (exists s' e, p_slurp P s = Ret (s', Err e) /\ xs = [] /\ l = Err e /\ D s').

Definition p_rel {S T F E} (R : S -> list T -> res F E -> nat -> Prop) (D : S -> Prop)
    (s : S) (a : pabs T F E) : Prop :=
  match a with PActive xs l k => R s xs l k | PEnded => D s end.

(** * Consumers

    A consumer denotes a deterministic machine that accepts or refuses items, a
    final value, and flushes. *)
Record machine (A T F E : Type) : Type := mk_machine {
  m_step : T -> A -> A * res unit E;
  m_finish : F -> A -> A * res unit E;
  m_flush : A -> A * res unit E
}.

(** Feeding items one at a time, stopping at the first refusal: the state reached,
    the number of items accepted, and the error if one occurred. *)
Fixpoint m_feed {A T F E} (M : machine A T F E) (xs : list T) (a : A) : A * nat * option E :=
  match xs with
  | [] => (a, 0, None)
  | x :: xs =>
      match m_step M x a with
      | (a, Ok _) => match m_feed M xs a with (a, n, e) => (a, S n, e) end
      | (a, Err e) => (a, 0, Some e)
      end
  end.

(** The specification state of a consumer: the machine state, the number of slots on
    offer, and what has been written into the first of them. *)
Inductive cabs (A T : Type) : Type :=
| CActive (a : A) (k : nat) (w : list T)
| CEnded (a : A).
Arguments CActive {A T} a k w.
Arguments CEnded {A T} a.

Inductive cop (T F : Type) : Type :=
| CConsume (x : T)
| CClose (f : F)
| CFlush
| CExpose
| CWrite (ys : list T)
| CConsumeSlots (n : nat)
| CBulkConsume (buf : list T).
Arguments CConsume {T F} x.
Arguments CClose {T F} f.
Arguments CFlush {T F}.
Arguments CExpose {T F}.
Arguments CWrite {T F} ys.
Arguments CConsumeSlots {T F} n.
Arguments CBulkConsume {T F} buf.

Inductive cans (E : Type) : Type :=
| CAUnit (r : res unit E)
| CASlots (r : res nat E)
| CANat (r : res nat E)
| CANone.
Arguments CAUnit {E} r.
Arguments CASlots {E} r.
Arguments CANat {E} r.
Arguments CANone {E}.

Definition c_permitted {A T F} (a : cabs A T) (o : cop T F) : Prop :=
  match a, o with
  | CEnded _, _ => False
  | CActive _ k _, CWrite ys => length ys <= k
  | CActive _ k w, CConsumeSlots n => 1 <= k /\ n <= length w
  | CActive _ _ _, CBulkConsume buf => buf <> []
  | CActive _ _ _, _ => True
  end.

(** State after a machine transition: ended if it failed. *)
Definition c_next {A T E} (ar : A * res unit E) (k : nat) (w : list T) : cabs A T :=
  match ar with
  | (a, Ok _) => CActive a k w
  | (a, Err _) => CEnded a
  end.

Definition c_answer {A T F E} (M : machine A T F E) (a : cabs A T) (o : cop T F) (r : cans E)
    (a' : cabs A T) : Prop :=
  match a with
  | CEnded _ => False
  | CActive a k w =>
      match o, r with
      | CConsume x, CAUnit r => r = snd (m_step M x a) /\ a' = c_next (m_step M x a) 0 []
      | CClose f, CAUnit r => r = snd (m_finish M f a) /\ a' = CEnded (fst (m_finish M f a))
      | CFlush, CAUnit r => r = snd (m_flush M a) /\ a' = c_next (m_flush M a) k w
      | CExpose, CASlots r =>
          (exists n, 1 <= n /\ r = Ok n /\ a' = CActive a n []) \/
          (exists e a1, (forall x, m_step M x a = (a1, Err e)) /\ r = Err e /\ a' = CEnded a1)
      | CWrite ys, CANone => a' = CActive a k (overlay ys w)
      | CConsumeSlots n, CAUnit r =>
          match m_feed M (firstn n w) a with
          | (a1, _, None) => r = Ok tt /\ a' = CActive a1 (k - n) (skipn n w)
          | (a1, _, Some e) => r = Err e /\ a' = CEnded a1
          end
      | CBulkConsume buf, CANat r =>
          (exists n a1, 1 <= n <= length buf /\ m_feed M (firstn n buf) a = (a1, n, None) /\
             r = Ok n /\ a' = CActive a1 0 []) \/
          (exists n e a1, m_feed M buf a = (a1, n, Some e) /\ r = Err e /\ a' = CEnded a1)
      | _, _ => False
      end
  end.

Definition c_do {S T F E} (C : bulk_consumer S T F E) (o : cop T F) (s : S) : outcome (S * cans E) :=
  match o with
  | CConsume x => let* (s, r) := c_consume C x s in Ret (s, CAUnit r)
  | CClose f => let* (s, r) := c_close C f s in Ret (s, CAUnit r)
  | CFlush => let* (s, r) := c_flush C s in Ret (s, CAUnit r)
  | CExpose => let* (s, r) := c_expose C s in Ret (s, CASlots r)
  | CWrite ys => Ret (c_write C ys s, CANone)
  | CConsumeSlots n => let* (s, r) := c_consume_slots C n s in Ret (s, CAUnit r)
  | CBulkConsume buf => let* (s, r) := c_bulk_consume C buf s in Ret (s, CANat r)
  end.

Inductive c_conforms {S A T F E} (C : bulk_consumer S T F E) (M : machine A T F E)
  : list (cop T F) -> S -> cabs A T -> Prop :=
| c_conforms_nil : forall s a, c_conforms C M [] s a
| c_conforms_broken : forall o ops s a, ~ c_permitted a o -> c_conforms C M (o :: ops) s a
| c_conforms_step : forall o ops s a s' r a',
    c_permitted a o -> c_do C o s = Ret (s', r) -> c_answer M a o r a' ->
    c_conforms C M ops s' a' -> c_conforms C M (o :: ops) s a.

Inductive c_history {S A T F E} (C : bulk_consumer S T F E) (M : machine A T F E)
  : S -> cabs A T -> list (cop T F * cans E) -> S -> cabs A T -> Prop :=
| c_history_nil : forall s a, c_history C M s a [] s a
| c_history_step : forall s a o s' r a' h s'' a'',
    c_permitted a o -> c_do C o s = Ret (s', r) -> c_answer M a o r a' ->
    c_history C M s' a' h s'' a'' -> c_history C M s a ((o, r) :: h) s'' a''.

(** The contract as a relation: [R s a k w] while active, [D s a] after the end. *)
Record lawful_consumer_core {S A T F E} (C : bulk_consumer S T F E) (M : machine A T F E)
    (R : S -> A -> nat -> list T -> Prop) (D : S -> A -> Prop) : Prop := {
  lc_wf : forall s a k w, R s a k w -> length w <= k;
  lc_forget : forall s a k w, R s a k w -> R s a 0 [];
  lc_consume : forall s a k w x, R s a k w ->
    exists s', c_consume C x s = Ret (s', snd (m_step M x a)) /\
      match m_step M x a with (a', Ok _) => R s' a' 0 [] | (a', Err _) => D s' a' end;
  lc_close : forall s a k w f, R s a k w ->
    exists s', c_close C f s = Ret (s', snd (m_finish M f a)) /\ D s' (fst (m_finish M f a));
  lc_flush : forall s a k w, R s a k w ->
    exists s', c_flush C s = Ret (s', snd (m_flush M a)) /\
      match m_flush M a with (a', Ok _) => R s' a' k w | (a', Err _) => D s' a' end;
  lc_expose : forall s a k w, R s a k w ->
    (exists s' n, c_expose C s = Ret (s', Ok n) /\ 1 <= n /\ R s' a n []) \/
    (exists s' e a', c_expose C s = Ret (s', Err e) /\ (forall x, m_step M x a = (a', Err e)) /\ D s' a');
  lc_write : forall s a k w ys, R s a k w -> length ys <= k -> R (c_write C ys s) a k (overlay ys w);
  lc_consume_slots : forall s a k w n, R s a k w -> 1 <= k -> n <= length w ->
    match m_feed M (firstn n w) a with
    | (a', _, None) => exists s', c_consume_slots C n s = Ret (s', Ok tt) /\ R s' a' (k - n) (skipn n w)
    | (a', _, Some e) => exists s', c_consume_slots C n s = Ret (s', Err e) /\ D s' a'
    end
}.
Arguments lc_wf {S A T F E C M R D} _ {s a k w} _.
Arguments lc_forget {S A T F E C M R D} _ {s a k w} _.
Arguments lc_consume {S A T F E C M R D} _ {s a k w} x _.
Arguments lc_close {S A T F E C M R D} _ {s a k w} f _.
Arguments lc_flush {S A T F E C M R D} _ {s a k w} _.
Arguments lc_expose {S A T F E C M R D} _ {s a k w} _.
Arguments lc_write {S A T F E C M R D} _ {s a k w} ys _ _.
Arguments lc_consume_slots {S A T F E C M R D} _ {s a k w} n _ _ _.

Definition c_rel {S A T} (R : S -> A -> nat -> list T -> Prop) (D : S -> A -> Prop)
    (s : S) (a : cabs A T) : Prop :=
  match a with CActive a k w => R s a k w | CEnded a => D s a end.

(** The contract of [bulk_consume]: how many items are taken is left open, except
    that it is at least one; an error is one that feeding the items would raise. *)
Definition lawful_bulk_consume {S A T F E} (C : bulk_consumer S T F E) (M : machine A T F E)
    (R : S -> A -> nat -> list T -> Prop) (D : S -> A -> Prop) : Prop :=
  forall s a k w buf, R s a k w -> buf <> [] ->
    (exists s' n a', c_bulk_consume C buf s = Ret (s', Ok n) /\ 1 <= n <= length buf /\
       m_feed M (firstn n buf) a = (a', n, None) /\ R s' a' 0 []) \/
    (exists s' n e a', c_bulk_consume C buf s = Ret (s', Err e) /\
       m_feed M buf a = (a', n, Some e) /\ D s' a').

Record lawful_consumer {S A T F E} (C : bulk_consumer S T F E) (M : machine A T F E)
    (R : S -> A -> nat -> list T -> Prop) (D : S -> A -> Prop) : Prop := {
  lc_core :> lawful_consumer_core C M R D;
  lc_bulk : lawful_bulk_consume C M R D
}.
Arguments lc_core {S A T F E C M R D} _.
Arguments lc_bulk {S A T F E C M R D} _ {s a k w} buf _ _.

(** A consumer whose bulk errors refer to the very first item offered: what it
    exposes, it accepts. *)
Definition clean_bulk {S A T F E} (C : bulk_consumer S T F E) (M : machine A T F E)
    (R : S -> A -> nat -> list T -> Prop) : Prop :=
  forall s a k w x buf s' e, R s a k w ->
    c_bulk_consume C (x :: buf) s = Ret (s', Err e) -> snd (m_step M x a) = Err e.

(** The items a history of calls put into a consumer: those whose call succeeded.
    [w] is what has been written into the slots on offer. *)
Fixpoint c_consumed {T F E} (w : list T) (h : list (cop T F * cans E)) : list T :=
  match h with
  | [] => []
  | (CConsume x, CAUnit (Ok _)) :: h => x :: c_consumed [] h
  | (CExpose, CASlots (Ok _)) :: h => c_consumed [] h
  | (CWrite ys, _) :: h => c_consumed (overlay ys w) h
  | (CConsumeSlots n, CAUnit (Ok _)) :: h => firstn n w ++ c_consumed (skipn n w) h
  | (CBulkConsume buf, CANat (Ok n)) :: h => firstn n buf ++ c_consumed [] h
  | _ :: h => c_consumed w h
  end.

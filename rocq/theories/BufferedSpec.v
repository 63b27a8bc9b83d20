(** The contract of a buffering consumer: it withholds a bounded number of items and forwards
    the others, in order, to an inner consumer. Independent of any implementation. *)
From Coq Require Import Bool List Arith.
From Verif Require Import Prelude Traits Contracts AdaptorSpec.
Import ListNotations.
Set Implicit Arguments.

(** What happens to an inner consumer before it is closed. *)
Inductive cev (T : Type) : Type := EvItem (x : T) | EvFlush.
Arguments EvFlush {T}.

Definition ev_item {T} (ev : cev T) : list T := match ev with EvItem x => [x] | EvFlush => [] end.

Definition ev_items {T} (evs : list (cev T)) : list T := flat_map ev_item evs.

Definition m_ev {A T F E} (M : machine A T F E) (ev : cev T) (a : A) : A * res unit E :=
  match ev with EvItem x => m_step M x a | EvFlush => m_flush M a end.

(** The state of the machine after the events, if it accepts all of them. *)
Fixpoint m_run {A T F E} (M : machine A T F E) (evs : list (cev T)) (a : A) : option A :=
  match evs with
  | [] => Some a
  | ev :: evs =>
      match m_ev M ev a with
      | (a, Ok _) => m_run M evs a
      | (_, Err _) => None
      end
  end.

(** Forwarding the items [xs] in order, possibly with flushes in between. *)
Definition m_forwards {A T F E} (M : machine A T F E) (a : A) (xs : list T) (a' : A) : Prop :=
  exists evs, ev_items evs = xs /\ m_run M evs a = Some a'.

(** Forwarding some of the items [xs] in order until the machine refuses one of them, or a
    flush before the last of them, with [e]. *)
Definition m_refuses {A T F E} (M : machine A T F E) (a : A) (xs : list T) (e : E) (a' : A) : Prop :=
  exists evs ev a1 rest, xs = ev_items evs ++ ev_item ev ++ rest /\ ev_item ev ++ rest <> [] /\
    m_run M evs a = Some a1 /\ m_ev M ev a1 = (a', Err e).

(** Specification state: state of the inner machine, items withheld, slots on offer and what has
    been written into them. *)
Inductive babs (A T : Type) : Type :=
| BActive (a : A) (pend : list T) (k : nat) (w : list T)
| BEnded (a : A).
Arguments BActive {A T} a pend k w.
Arguments BEnded {A T} a.

(** The rules for the caller are those for all consumers. *)
Definition b_permitted {A T F} (b : babs A T) (o : cop T F) : Prop :=
  match b with
  | BActive a _ k w => c_permitted (CActive a k w) o
  | BEnded a => False
  end.

Definition b_answer {A T F E} (M : machine A T F E) (cap : nat) (b : babs A T) (o : cop T F) (r : cans E)
    (b' : babs A T) : Prop :=
  match b with
  | BEnded _ => False
  | BActive a pend k w =>
      let refused e := exists a', m_refuses M a pend e a' /\ b' = BEnded a' in
      match o, r with
      | CConsume x, CAUnit (Ok _) => exists out pend' a',
          out ++ pend' = pend ++ [x] /\ length pend' <= cap /\ m_forwards M a out a' /\ b' = BActive a' pend' 0 []
      | CClose f, CAUnit r =>
          (exists a1, m_forwards M a pend a1 /\ r = snd (m_finish M f a1) /\ b' = BEnded (fst (m_finish M f a1))) \/
          (exists e, r = Err e /\ refused e)
      | CFlush, CAUnit (Ok _) => exists a1 a',
          m_forwards M a pend a1 /\ m_flush M a1 = (a', Ok tt) /\ b' = BActive a' [] k w
      | CExpose, CASlots (Ok n) => exists out pend' a',
          out ++ pend' = pend /\ 1 <= n /\ length pend' + n <= cap /\ m_forwards M a out a' /\
          b' = BActive a' pend' n []
      | CWrite ys, CANone => b' = BActive a pend k (overlay ys w)
      | CConsumeSlots n, CAUnit (Ok _) =>
          length pend + n <= cap /\ b' = BActive a (pend ++ firstn n w) (k - n) (skipn n w)
      | CBulkConsume buf, CANat (Ok n) => exists out pend' a',
          1 <= n <= length buf /\ out ++ pend' = pend ++ firstn n buf /\ length pend' <= cap /\
          m_forwards M a out a' /\ b' = BActive a' pend' 0 []
      | CFlush, CAUnit (Err e) => refused e \/
          (exists a1 a', m_forwards M a pend a1 /\ m_flush M a1 = (a', Err e) /\ b' = BEnded a')
      | CConsume _, CAUnit (Err e) | CExpose, CASlots (Err e) | CBulkConsume _, CANat (Err e) => refused e
      | _, _ => False
      end
  end.

(** Calls and answers that the specification permits. *)
Inductive b_run {A T F E} (M : machine A T F E) (cap : nat)
  : babs A T -> list (cop T F * cans E) -> babs A T -> Prop :=
| b_run_nil : forall b, b_run M cap b [] b
| b_run_step : forall b o r b1 h b2, b_permitted b o -> b_answer M cap b o r b1 ->
    b_run M cap b1 h b2 -> b_run M cap b ((o, r) :: h) b2.

(** The rules for callers, judged from calls and answers alone; [k] slots are on offer, [w] is
    what has been written into them. *)
Fixpoint c_client {T F E} (k : nat) (w : list T) (h : list (cop T F * cans E)) : Prop :=
  match h with
  | [] => True
  | (o, r) :: h =>
      match o with
      | CWrite ys => length ys <= k
      | CConsumeSlots n => 1 <= k /\ n <= length w
      | CBulkConsume buf => buf <> []
      | _ => True
      end /\
      if c_ends o r then h = []
      else match o, r with
           | CFlush, _ => c_client k w h
           | CWrite ys, _ => c_client k (overlay ys w) h
           | CExpose, CASlots (Ok n) => c_client n [] h
           | CConsumeSlots n, _ => c_client (k - n) (skipn n w) h
           | _, _ => c_client 0 [] h
           end
  end.

(** Implementations: [R s a pend k w] while active, [D s a] after the end. *)
Definition b_rel {S A T} (R : S -> A -> list T -> nat -> list T -> Prop) (D : S -> A -> Prop)
    (s : S) (b : babs A T) : Prop :=
  match b with BActive a pend k w => R s a pend k w | BEnded a => D s a end.

Definition buffers {S A T F E} (C : bulk_consumer S T F E) (M : machine A T F E) (cap : nat)
    (R : S -> A -> list T -> nat -> list T -> Prop) (D : S -> A -> Prop) : Prop :=
  forall o s b, b_rel R D s b -> b_permitted b o ->
    exists s' r b', c_do C o s = Ret (s', r) /\ b_answer M cap b o r b' /\ b_rel R D s' b'.

(** The error that an answer reports. *)
Definition c_error {E} (r : cans E) : option E :=
  match r with CAUnit (Err e) | CASlots (Err e) | CANat (Err e) => Some e | _ => None end.

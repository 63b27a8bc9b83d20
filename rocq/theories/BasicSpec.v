(** Specifications for the basic producers and consumers. *)
From Coq Require Import Bool List Arith.
From Verif Require Import Prelude Traits Contracts BasicModel.
Import ListNotations.
Set Implicit Arguments.

(** *** Collecting consumers *)

(** Collects items, accepts everything. *)
Definition collect_machine (T F E : Type) : machine (list T) T F E :=
  mk_machine (fun x log => (log ++ [x], Ok tt)) (fun _ log => (log, Ok tt)) (fun log => (log, Ok tt)).

(** A consumer that accepts [t_left] further items and then fails, once, on whatever is
    called next. *)
Record tstate (T F : Type) : Type := mk_tstate {
  t_log : list T;
  t_fin : option F;
  t_left : nat;
  t_failed : bool
}.

Definition t_fail {T F} (a : tstate T F) : tstate T F :=
  mk_tstate (t_log a) (t_fin a) (t_left a) true.

Definition failing_machine (T F E : Type) (error : E) : machine (tstate T F) T F E :=
  mk_machine
    (fun x a => match t_left a with
                | 0 => (t_fail a, Err error)
                | S n => (mk_tstate (t_log a ++ [x]) (t_fin a) n (t_failed a), Ok tt)
                end)
    (fun f a => match t_left a with
                | 0 => (t_fail a, Err error)
                | S _ => (mk_tstate (t_log a) (Some f) (t_left a) (t_failed a), Ok tt)
                end)
    (fun a => match t_left a with
              | 0 => (t_fail a, Err error)
              | S _ => (a, Ok tt)
              end).

(** *** Cycling *)

(** The [i]-th element of the infinite repetition of [l]. *)
Definition cycle {T} (d : T) (l : list T) (i : nat) : T := nth (i mod length l) l d.

(** The pattern a yielder follows: [false] is appended if nothing else would let it finish. *)
Definition effective_pattern (p : list bool) : list bool :=
  if existsb negb p then p else p ++ [false].

(** The answers to the first [n] polls. *)
Fixpoint poll_trace (n : nat) (y : yielder) : outcome (yielder * list bool) :=
  match n with
  | 0 => Ret (y, [])
  | S n =>
      let* (y, b) := yielder_poll y in
      let* (y, bs) := poll_trace n y in
      Ret (y, b :: bs)
  end.

(** How often items were successfully exposed in a history; [bulk_produce] exposes, too. *)
Fixpoint exposures {T F E} (h : list (pop T * pans T F E)) : nat :=
  match h with
  | [] => 0
  | (_, PASlice (Ok (inl _))) :: h | (_, PABuf _ (Ok (inl _))) :: h => S (exposures h)
  | _ :: h => exposures h
  end.

(** How often slots were exposed in a history; [bulk_consume] exposes, too. *)
Fixpoint slot_exposures {T F E} (h : list (cop T F * cans E)) : nat :=
  match h with
  | [] => 0
  | (_, CASlots (Ok _)) :: h | (_, CANat (Ok _)) :: h => S (slot_exposures h)
  | _ :: h => slot_exposures h
  end.

(** [n] awaits in a row. *)
Fixpoint await_all (n : nat) (y : yielder) : outcome yielder :=
  match n with
  | 0 => Ret y
  | S n => let* y := yielder_await (length (y_pattern y)) y in await_all n y
  end.

(** The polls of an await that finds its future pending [k] times. *)
Definition pending_then_ready (k : nat) : list bool := repeat false k ++ [true].

(** Whether some call of a history failed, and the value it successfully closed with. *)
Definition cans_failed {E} (r : cans E) : bool :=
  match r with
  | CAUnit (Err _) | CASlots (Err _) | CANat (Err _) => true
  | _ => false
  end.
Definition c_failed {T F E} (h : list (cop T F * cans E)) : bool := existsb (fun x => cans_failed (snd x)) h.

Fixpoint c_closed {T F E} (h : list (cop T F * cans E)) : option F :=
  match h with
  | [] => None
  | (CClose f, CAUnit (Ok _)) :: _ => Some f
  | _ :: h => c_closed h
  end.

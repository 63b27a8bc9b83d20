(** What [IntoSlice] is supposed to do. *)
From Coq Require Import Bool List Arith.
From Verif Require Import Prelude Traits Contracts.
Import ListNotations.
Set Implicit Arguments.

(** Collects up to [n] items and refuses further ones. *)
Definition filling_machine (T F : Type) (n : nat) : machine (list T) T F unit :=
  mk_machine
    (fun x log => if length log <? n then (log ++ [x], Ok tt) else (log, Err tt))
    (fun _ log => (log, Ok tt))
    (fun log => (log, Ok tt)).

(** A history in which nobody writes into exposed slots. *)
Definition no_writes {T F E} (h : list (cop T F * cans E)) : Prop :=
  Forall (fun c => match fst c with CWrite _ => False | _ => True end) h.

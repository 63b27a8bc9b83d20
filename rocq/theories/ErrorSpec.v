(** How the texts of errors are to be read. *)
From Coq Require Import Bool List Arith String Ascii.
From Verif Require Import Prelude Traits.
Set Implicit Arguments.
Local Open Scope string_scope.

(** The number that a sequence of decimal digits denotes, [acc] being the digits before. *)
Fixpoint digits (acc : nat) (s : string) : option nat :=
  match s with
  | EmptyString => Some acc
  | String c s =>
      if ((48 <=? nat_of_ascii c) && (nat_of_ascii c <=? 57))%nat then digits (10 * acc + (nat_of_ascii c - 48)) s else None
  end.

(** [numeral s n]: [s] is the decimal numeral of [n], without leading zeros. *)
Definition numeral (s : string) (n : nat) : Prop :=
  digits 0 s = Some n /\ s <> "" /\ (forall s', s = String "0" s' -> s' = "").

(** [reports text n]: the text ends with "[n] items". *)
Definition reports (text : string) (n : nat) : Prop :=
  exists before s, text = before ++ " " ++ s ++ " items" /\ numeral s n.

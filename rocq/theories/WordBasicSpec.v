(** Vocabulary for the statements about machine words. *)
From Coq Require Import List Arith.
From Verif Require Import Prelude Traits Contracts.
Import ListNotations.
Set Implicit Arguments.

(** What a collecting consumer has received. *)
Definition consumed_items {T} (a : cabs (list T) T) : list T :=
  match a with CActive log _ _ => log | CEnded log => log end.

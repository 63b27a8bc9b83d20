(** What comparisons should be like. *)
From Coq Require Import Bool List.
Set Implicit Arguments.

Definition decides {X} (eq : X -> X -> bool) : Prop := forall x y, eq x y = true <-> x = y.

(** The laws of [Eq]. *)
Definition equivalence {X} (eq : X -> X -> bool) : Prop :=
  (forall x, eq x x = true) /\ (forall x y, eq x y = true -> eq y x = true) /\
  (forall x y z, eq x y = true -> eq y z = true -> eq x z = true).

(** How much a tower of adaptors may hold back. *)
From Coq Require Import List.
From Verif Require Import Prelude Traits ScramblerModel TowerModel.
Import ListNotations.
Set Implicit Arguments.

(** The capacities of all scramblers of a tower together. *)
Fixpoint pt_capacity {T F E G} (t : ptower T F E G) : nat :=
  match t with
  | PTBase => 0
  | PTLimit _ t => pt_capacity t
  | PTMapFinal _ t => pt_capacity t
  | PTInvariant t => pt_capacity t
  | PTScramble _ _ _ _ cap t => cap + pt_capacity t
  end.

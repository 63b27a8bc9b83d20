(** What derived comparisons and hashes should be like: the laws from the documentation of [PartialEq], [Eq], [PartialOrd], [Ord]
    and [Hash]. *)
From Coq Require Import Bool List Arith ZArith.
From Coq.Init Require Import Byte.
From Verif Require Import Prelude AdaptorModel BasicModel EndianModel OrderModel.
Import ListNotations.
Set Implicit Arguments.

(** [PartialEq] and [PartialOrd]. *)
Record lawful_partial {A} (O : compared A) : Prop := {
  lo_sym : forall x y, c_eq O x y = true -> c_eq O y x = true;
  lo_trans : forall x y z, c_eq O x y = true -> c_eq O y z = true -> c_eq O x z = true;
  lo_agree : forall x y, c_eq O x y = true <-> c_partial_cmp O x y = Some Eq;
  lo_dual : forall x y, c_partial_cmp O y x = option_map CompOpp (c_partial_cmp O x y);
  lo_less : forall x y z, c_partial_cmp O x y = Some Lt -> c_partial_cmp O y z = Some Lt -> c_partial_cmp O x z = Some Lt;
  lo_cong : forall x y z, c_eq O x y = true -> c_partial_cmp O x z = c_partial_cmp O y z
}.

(** [Eq] and [Ord]. *)
Definition lawful_total {A} (O : compared A) : Prop :=
  lawful_partial O /\ (forall x, c_eq O x x = true) /\ (forall x y, c_partial_cmp O x y = Some (c_cmp O x y)).

(** Equality is that of values. *)
Definition faithful {A} (O : compared A) : Prop := forall x y, c_eq O x y = true <-> x = y.

(** Equal values feed the same; and different values feed something different, whatever is fed after them. *)
Definition hash_agrees {A} (O : compared A) : Prop := forall x y, c_eq O x y = true -> c_hash O x = c_hash O y.
Definition hash_tells {A} (O : compared A) : Prop :=
  forall x y r r', c_hash O x ++ r = c_hash O y ++ r' -> c_eq O x y = true /\ r = r'.

(** All types of the library have a property, provided that those that they are made of have it. *)
Record everywhere (P : forall A, compared A -> Prop) : Prop := {
  ev_test_invariant : forall S (O : compared S), P S O -> P _ (compared_invariant O);
  ev_limit : forall S (O : compared S), P S O -> P _ (compared_limit O);
  ev_map_item : forall S W (O : compared S) (OW : compared W), P S O -> P W OW -> P _ (compared_map_item O OW);
  ev_with_fun : forall S G (O : compared S) (OG : compared G), P S O -> P G OG -> P _ (compared_with_fun O OG);
  ev_buf_reader : forall S (O : compared S), P S O -> P _ (compared_buf_reader O);
  ev_yielder : P _ compared_yielder;
  ev_blame : P _ compared_blame;
  ev_endian : forall w, P _ (compared_endian w)
}.

(** The order of slices of bytes of the same length: at the first difference. *)
Definition below (xs ys : list byte) : Prop :=
  exists p x xs' y ys', xs = p ++ x :: xs' /\ ys = p ++ y :: ys' /\ (byte_val x < byte_val y)%Z.

(** The wrappers whose encodings are ordered like the numbers. *)
Definition sorted_encodings : list wrapper := [U8BE; U16BE; U32BE; U64BE; U8LE].

(** The order of the patterns of yielders: a proper prefix, or [false] at the first difference. *)
Definition pattern_before (p q : list bool) : Prop :=
  (exists b r, q = p ++ b :: r) \/ exists c r r', p = c ++ false :: r /\ q = c ++ true :: r'.

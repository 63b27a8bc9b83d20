(** Model of the derived comparisons and hashes: [PartialEq], [PartialOrd], [Ord] and [Hash].

    What [#[derive(..)]] generates: [eq] compares the fields with [&&], [partial_cmp] and [cmp] compare them in order and stop
    at the first that is not [Equal], [hash] feeds the fields to the hasher, in order. A variant comes before those declared after it.
    [PhantomData] is equal to itself and feeds nothing. Comparisons of the fields neither panic nor have effects. *)
From Coq Require Import Bool List Arith ZArith.
From Verif Require Import Prelude Traits BasicModel AdaptorModel ScramblerModel CodecModel EndianModel ErrorModel EqualityModel.
Import ListNotations.
Set Implicit Arguments.

(** What is fed to a hasher: numbers with their types, lengths of slices ([usize]), and discriminants of variants ([isize]). *)
Inductive feed : Type := FeedInt (i : int) (z : Z) | FeedSize (n : nat) | FeedVariant (n : nat).

(** The four traits, implemented for a type. *)
Record compared (A : Type) : Type := mk_compared {
  c_eq : A -> A -> bool;
  c_partial_cmp : A -> A -> option comparison;
  c_cmp : A -> A -> comparison;
  c_hash : A -> list feed
}.

(** The code derived for two fields. *)
Definition then_partial (a b : option comparison) : option comparison := match a with Some Eq => b | c => c end.
Definition then_cmp (a b : comparison) : comparison := match a with Eq => b | c => c end.
Definition derive_two {A B C} (p : A -> B) (OB : compared B) (q : A -> C) (OC : compared C) : compared A :=
  mk_compared (fun x y => c_eq OB (p x) (p y) && c_eq OC (q x) (q y))
    (fun x y => then_partial (c_partial_cmp OB (p x) (p y)) (c_partial_cmp OC (q x) (q y)))
    (fun x y => then_cmp (c_cmp OB (p x) (p y)) (c_cmp OC (q x) (q y)))
    (fun x => c_hash OB (p x) ++ c_hash OC (q x)).

(** For one field. *)
Definition derive_one {A B} (p : A -> B) (OB : compared B) : compared A :=
  mk_compared (fun x y => c_eq OB (p x) (p y)) (fun x y => c_partial_cmp OB (p x) (p y)) (fun x y => c_cmp OB (p x) (p y))
    (fun x => c_hash OB (p x)).

(** ** Types of the standard library *)

Definition compared_usize : compared nat :=
  mk_compared Nat.eqb (fun x y => Some (Nat.compare x y)) Nat.compare (fun x => [FeedSize x]).

(** [false < true]; a [bool] is hashed as a [u8]. *)
Definition bool_cmp (a b : bool) : comparison := match a, b with false, true => Lt | true, false => Gt | _, _ => Eq end.
Definition compared_bool : compared bool :=
  mk_compared Bool.eqb (fun x y => Some (bool_cmp x y)) bool_cmp (fun x => [FeedInt u8 (if x then 1 else 0)]).

Definition compared_int (i : int) : compared (num i) :=
  mk_compared (fun x y => Z.eqb (num_val x) (num_val y)) (fun x y => Some (Z.compare (num_val x) (num_val y)))
    (fun x y => Z.compare (num_val x) (num_val y)) (fun x => [FeedInt i (num_val x)]).

(** Slices are compared item by item; a proper prefix is smaller. The length is hashed first. *)
Section Slices.
  Context {T : Type} (O : compared T).

  Fixpoint slice_partial_cmp (a b : list T) : option comparison :=
    match a, b with
    | [], [] => Some Eq
    | [], _ :: _ => Some Lt
    | _ :: _, [] => Some Gt
    | x :: a, y :: b => then_partial (c_partial_cmp O x y) (slice_partial_cmp a b)
    end.
  Fixpoint slice_cmp (a b : list T) : comparison :=
    match a, b with
    | [], [] => Eq
    | [], _ :: _ => Lt
    | _ :: _, [] => Gt
    | x :: a, y :: b => then_cmp (c_cmp O x y) (slice_cmp a b)
    end.
  Definition compared_slice : compared (list T) :=
    mk_compared (slice_eq (c_eq O)) slice_partial_cmp slice_cmp (fun l => FeedSize (length l) :: flat_map (c_hash O) l).
End Slices.

(** [None] comes before [Some]. *)
Definition compared_option {T} (O : compared T) : compared (option T) :=
  mk_compared (option_eq (c_eq O))
    (fun a b => match a, b with Some x, Some y => c_partial_cmp O x y | None, None => Some Eq | None, Some _ => Some Lt | Some _, None => Some Gt end)
    (fun a b => match a, b with Some x, Some y => c_cmp O x y | None, None => Eq | None, Some _ => Lt | Some _, None => Gt end)
    (fun a => match a with None => [FeedVariant 0] | Some x => FeedVariant 1 :: c_hash O x end).

(** ** Types of the library *)

(** In test builds, producer/invariant.rs 25-35, consumer/invariant.rs 21-31. *)
Definition compared_invariant {S} (O : compared S) : compared (invariant S) :=
  derive_two (@inv_inner S) O (fun s => s) (derive_two (@inv_active S) compared_bool (@inv_exposed S) compared_usize).

(** In other builds, producer/invariant_noop.rs 25-29, consumer/invariant_noop.rs 21-25: there is only one field. *)
Definition compared_invariant_noop {S} (O : compared S) : compared (invariant S) := derive_one (@inv_inner S) O.

(** producer/limit.rs 6-10, consumer/limit.rs 4-8. *)
Definition compared_limit {S} (O : compared S) : compared (limit S) :=
  derive_two (@lim_inner S) O (@lim_remaining S) compared_usize.

(** producer/map_item.rs 6-10, consumer/map_item.rs 6-11. [OW] are the comparisons of the closure. *)
Definition compared_map_item {S W} (O : compared S) (OW : compared W) : compared (map_item S W) :=
  derive_two (@mi_inner S W) O (@mi_closure S W) OW.

(** producer/map_final.rs 6-10, consumer/map_final.rs 6-11, producer/map_error.rs 6-10, consumer/map_error.rs 4-8. *)
Definition compared_with_fun {S G} (O : compared S) (OG : compared G) : compared (with_fun S G) :=
  derive_two (@wf_inner S G) O (@wf_fun S G) (compared_option OG).

(** producer/reader.rs 11-12. *)
Definition compared_buf_reader {S} (O : compared S) : compared S := derive_one (fun s => s) O.

(** test_yielder.rs 13-17. *)
Definition compared_yielder : compared yielder :=
  derive_two y_pattern (compared_slice compared_bool) y_index compared_usize.

(** decode_error.rs 106-112. *)
Definition blame_variant (b : blame) : nat := match b with TheirFault => 0 | OurFault => 1 end.
Definition compared_blame : compared blame :=
  mk_compared (fun x y => Nat.eqb (blame_variant x) (blame_variant y)) (fun x y => Some (Nat.compare (blame_variant x) (blame_variant y)))
    (fun x y => Nat.compare (blame_variant x) (blame_variant y)) (fun x => [FeedVariant (blame_variant x)]).

(** ufotofu_codec_endian lib.rs 40-42 and 128-130. *)
Definition compared_endian (w : wrapper) : compared (num (wrapped w)) := derive_one (fun v => v) (compared_int (wrapped w)).

(** Only [PartialEq]: errors.rs 9-15, 53-59, 91-97, decode_error.rs 21-26, producer/bulk_scrambler.rs 19-24,
    consumer/bulk_scrambler.rs 18-23. *)
Definition pipe_error_eq {A B} (ea : A -> A -> bool) (eb : B -> B -> bool) (x y : pipe_error A B) : bool :=
  match x, y with PipeProducer a, PipeProducer b => ea a b | PipeConsumer a, PipeConsumer b => eb a b | _, _ => false end.
Definition cale_eq {E} (ee : E -> E -> bool) (x y : consume_at_least_error E) : bool :=
  Nat.eqb (cale_count x) (cale_count y) && ee (cale_reason x) (cale_reason y).
Definition pale_eq {F E} (ef : F -> F -> bool) (ee : E -> E -> bool) (x y : produce_at_least_error F E) : bool :=
  Nat.eqb (pale_count x) (pale_count y) &&
  match pale_reason x, pale_reason y with inl a, inl b => ef a b | inr a, inr b => ee a b | _, _ => false end.
Definition decode_error_eq {F E O} (ef : F -> F -> bool) (ee : E -> E -> bool) (eo : O -> O -> bool) (x y : decode_error F E O) : bool :=
  match x, y with
  | UnexpectedEndOfInput a, UnexpectedEndOfInput b => ef a b
  | Producer a, Producer b => ee a b
  | Other a, Other b => eo a b
  | _, _ => false
  end.
Definition pscr_op_eq (x y : pscr_op) : bool :=
  match x, y with
  | ScProduce, ScProduce => true
  | ScConsiderProduced n, ScConsiderProduced m => Nat.eqb n m
  | ScSlurp, ScSlurp => true
  | _, _ => false
  end.
Definition cscr_op_eq (x y : cscr_op) : bool :=
  match x, y with
  | ScConsume, ScConsume => true
  | ScConsumeSlots n, ScConsumeSlots m => Nat.eqb n m
  | ScFlush, ScFlush => true
  | _, _ => false
  end.

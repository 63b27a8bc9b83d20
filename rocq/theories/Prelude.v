(** Shared vocabulary of the model: outcomes of Rust computations, results,
    checked arithmetic and checked slice accesses. *)
From Coq Require Import Bool List Arith Lia.
Import ListNotations.
Set Implicit Arguments.

(** The outcome of running a piece of Rust code: it returns a value, it panics,
    or the step bound that the model hands to its loops is exhausted. *)
Inductive outcome (A : Type) : Type :=
| Ret (a : A)
| Panic
| NoFuel.
Arguments Ret {A} a.
Arguments Panic {A}.
Arguments NoFuel {A}.

Definition bind {A B : Type} (m : outcome A) (k : A -> outcome B) : outcome B :=
  match m with
  | Ret a => k a
  | Panic => Panic
  | NoFuel => NoFuel
  end.

Notation "'let*' p ':=' e 'in' k" := (bind e (fun p => k))
  (at level 200, p pattern, e at level 200, k at level 200, right associativity).

(** Rust's [Result]. [Either<A, B>] is [A + B]. *)
Inductive res (A E : Type) : Type :=
| Ok (a : A)
| Err (e : E).
Arguments Ok {A E} a.
Arguments Err {A E} e.

Definition map_err {A E E' : Type} (f : E -> E') (r : res A E) : res A E' :=
  match r with Ok a => Ok a | Err e => Err (f e) end.

Definition is_ok {A E : Type} (r : res A E) : bool :=
  match r with Ok _ => true | Err _ => false end.

(** The uninhabited type [Infallible]. *)
Definition infallible := Empty_set.

(** Checked subtraction on [usize] (a build with overflow checks panics). *)
Definition csub (a b : nat) : outcome nat :=
  if a <? b then Panic else Ret (a - b).

(** [a % b]: panics when [b] is zero. *)
Definition cmod (a b : nat) : outcome nat :=
  match b with 0 => Panic | S _ => Ret (a mod b) end.

(** [&l[lo..hi]]: panics when out of bounds. *)
Definition slice {T : Type} (lo hi : nat) (l : list T) : outcome (list T) :=
  if (hi <? lo) || (length l <? hi) then Panic
  else Ret (firstn (hi - lo) (skipn lo l)).

(** [&l[lo..]] *)
Definition slice_from {T : Type} (lo : nat) (l : list T) : outcome (list T) :=
  if length l <? lo then Panic else Ret (skipn lo l).

(** [&l[..hi]] *)
Definition slice_to {T : Type} (hi : nat) (l : list T) : outcome (list T) :=
  if length l <? hi then Panic else Ret (firstn hi l).

(** [l[i]] *)
Definition index {T : Type} (i : nat) (l : list T) : outcome T :=
  match nth_error l i with Some x => Ret x | None => Panic end.

(** [l[i..i + ys.len()].clone_from_slice(ys)] on a plain list, without a check. *)
Definition blit {T : Type} (i : nat) (ys l : list T) : list T :=
  firstn i l ++ ys ++ skipn (i + length ys) l.

(** [l[i] = x]: panics when out of bounds. *)
Definition index_set {T : Type} (i : nat) (x : T) (l : list T) : outcome (list T) :=
  if i <? length l then Ret (blit i [x] l) else Panic.

(** [Option::take().expect(..)] / [unwrap()]: panics on [None]. *)
Definition expect {T : Type} (o : option T) : outcome T :=
  match o with Some x => Ret x | None => Panic end.

(** The effect of a client overwriting the first slots of an exposed slice:
    [w] is what was known to be written before, [ys] the new items. *)
Definition overlay {T : Type} (ys w : list T) : list T :=
  ys ++ skipn (length ys) w.

Global Arguments Nat.ltb : simpl never.
Global Arguments Nat.leb : simpl never.
Global Arguments Nat.modulo : simpl never.
Global Arguments Nat.div : simpl never.

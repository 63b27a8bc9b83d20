(** What [Arbitrary] instances should be like. *)
From Coq Require Import Bool List Arith.
From Coq.Init Require Import Byte.
From Coq Require Import NArith.
From Coq.Strings Require Byte.
From Verif Require Import Prelude ArbitraryModel.
Import ListNotations.
Set Implicit Arguments.
Open Scope nat_scope.

(** The hint is right: what is taken from the bytes is not more than the upper bound, and not less than the lower bound unless the bytes
    run out. *)
Definition hint_right {X} (arbitrary : list byte -> option (X * list byte)) (hint : nat * option nat) : Prop :=
  forall u x rest, arbitrary u = Some (x, rest) ->
  exists used, u = used ++ rest /\ (rest <> [] -> fst hint <= length used) /\
    match snd hint with Some upper => length used <= upper | None => True end.

Definition hints_right {X} (g : gen X) : Prop := forall depth, hint_right (g_arbitrary g) (g_size_hint g depth).

(** Some bytes generate [x]. *)
Definition generates {X} (arbitrary : list byte -> option (X * list byte)) (x : X) : Prop :=
  exists bytes, forall rest, arbitrary (bytes ++ rest) = Some (x, rest).

(** All numbers are positive, as those of type [NonZeroUsize] are. *)
Definition positive (sizes : list nat) : Prop := Forall (fun n => 1 <= n) sizes.
Definition only_positive (g : gen (list nat)) : Prop := forall u sizes rest, g_arbitrary g u = Some (sizes, rest) -> positive sizes.

(** ** The instances of the arbitrary crate, version 1, on a machine with 64 bits. *)

(** The next byte, or zero. *)
Definition next_byte (u : list byte) : byte * list byte := match u with [] => (x00, []) | b :: u => (b, u) end.

(** [bool]: the lowest bit of a byte. *)
Definition bool_gen : gen bool :=
  mk_gen (fun u => let (b, u) := next_byte u in Some (Nat.odd (Byte.to_nat b), u)) (fun _ => (1, Some 1)).

(** [usize]: eight bytes, the least significant one first. *)
Fixpoint take_number (n : nat) (u : list byte) : N * list byte :=
  match n with
  | 0 => (0%N, u)
  | S n =>
      let (b, u) := next_byte u in
      let (x, u) := take_number n u in
      ((Byte.to_N b + 256 * x)%N, u)
  end.
Definition usize_gen : gen nat :=
  mk_gen (fun u => let (x, u) := take_number 8 u in Some (N.to_nat x, u)) (fun _ => (8, Some 8)).

(** [u32] *)
Definition u32_gen : gen N :=
  mk_gen (fun u => Some (take_number 4 u)) (fun _ => (4, Some 4)).

(** [NonZeroUsize]: zero is an error. *)
Definition non_zero_gen : gen nat :=
  mk_gen (arbitrary_then usize_gen (fun n u => if n =? 0 then None else Some (n, u))) (fun _ => (8, Some 8)).

(** [Box<[T]>]: as long as there is a [true] in front, an element. *)
Fixpoint take_elements {X} (fuel : nat) (g : gen X) (u : list byte) : option (list X * list byte) :=
  match fuel with
  | 0 => None
  | S fuel =>
      arbitrary_then bool_gen (fun keep_going =>
        if keep_going then
          arbitrary_then g (fun x u =>
            match take_elements fuel g u with Some (xs, u) => Some (x :: xs, u) | None => None end)
        else fun u => Some ([], u)) u
  end.
Definition box_gen {X} (g : gen X) : gen (list X) :=
  mk_gen (fun u => take_elements (S (length u)) g u) (fun _ => (0, None)).

(** [()] and [Result<F, E>]. *)
Definition unit_gen : gen unit := mk_gen (fun u => Some (tt, u)) (fun _ => (0, Some 0)).
Definition hint_or (a b : nat * option nat) : nat * option nat :=
  (Nat.min (fst a) (fst b), match snd a, snd b with Some x, Some y => Some (Nat.max x y) | _, _ => None end).
Definition result_gen {F E} (g_ok : gen F) (g_err : gen E) : gen (res F E) :=
  mk_gen
    (arbitrary_then bool_gen (fun ok =>
       if ok then arbitrary_then g_ok (fun f u => Some (Ok f, u)) else arbitrary_then g_err (fun e u => Some (Err e, u))))
    (fun depth => hint_and (1, Some 1) (hint_or (g_size_hint g_ok depth) (g_size_hint g_err depth))).

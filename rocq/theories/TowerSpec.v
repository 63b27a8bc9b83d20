(** What towers of adaptors should do, in terms of sequences and machines. *)
From Coq Require Import Bool List Arith.
From Verif Require Import Prelude Traits Contracts AdaptorSpec ScramblerModel TowerModel.
Import ListNotations.
Set Implicit Arguments.

(** The smallest limit, if there is one. *)
Fixpoint pt_limit {T F E G} (t : ptower T F E G) : option nat :=
  match t with
  | PTBase => None
  | PTLimit n t => match pt_limit t with None => Some n | Some m => Some (Nat.min n m) end
  | PTMapFinal _ t => pt_limit t
  | PTInvariant t => pt_limit t
  | PTScramble _ _ _ _ _ t => pt_limit t
  end.

(** The items: limits cut off a prefix, nothing else has an influence. *)
Definition pt_items {T F E G} (t : ptower T F E G) (xs : list T) : list T :=
  match pt_limit t with None => xs | Some n => firstn n xs end.

(** The last value for a producer that emits [n] items and then [l]. Errors are passed on unless a
    limit is hit. *)
Fixpoint pt_last {T F E G} (t : ptower T F E G) (n : nat) (l : res F E) : res G E :=
  match t in ptower _ _ _ G return res G E with
  | PTBase => l
  | PTLimit m t =>
      if match pt_limit t with None => n | Some k => Nat.min k n end <? m
      then match pt_last t n l with Ok f => Ok (Some f) | Err e => Err e end
      else Ok None
  | PTMapFinal g t => match pt_last t n l with Ok f => Ok (g f) | Err e => Err e end
  | PTInvariant t => pt_last t n l
  | PTScramble _ _ _ _ _ t => pt_last t n l
  end.

(** When [slurp] may be called on a tower: no scrambler has been put on top of anything that is
    called, and no limit is hit exactly when an error is next. *)
Fixpoint pt_slurps {T F E G} (t : ptower T F E G) (xs : list T) (l : res F E) : Prop :=
  match t with
  | PTBase => True
  | PTLimit n t => pt_slurps t xs l /\ (length (pt_items t xs) = n -> exists f, pt_last t (length xs) l = Ok f)
  | PTMapFinal _ t => pt_slurps t xs l
  | PTInvariant t => pt_slurps t xs l
  | PTScramble _ _ _ _ _ _ => False
  end.

(** Requirements on the scramblers: a capacity, amounts that are not zero, enough fuel to rule out
    divergence, and a pattern without slurps unless slurping is fine one level down. *)
Fixpoint pt_ok {T F E G} (slurp : Prop) (t : ptower T F E G) (xs : list T) (l : res F E) : Prop :=
  match t with
  | PTBase => True
  | PTLimit _ t => pt_ok slurp t xs l
  | PTMapFinal _ t => pt_ok slurp t xs l
  | PTInvariant t => pt_ok slurp t xs l
  | PTScramble _ fuel _ pat cap t =>
      pt_ok slurp t xs l /\ 1 <= cap /\ (forall n, In (ScConsiderProduced n) pat -> 1 <= n) /\
      Datatypes.S cap * Datatypes.S (length pat) <= fuel /\
      (~ In ScSlurp pat \/ (slurp /\ pt_slurps t xs l))
  end.

(** ** Consumers *)
Fixpoint ct_abs {F E G B} (A : Type) (t : ctower F E G B) : Type :=
  match t with
  | CTBase => A
  | CTLimit _ t => nat * ct_abs A t
  | CTMapFinal _ t => ct_abs A t
  | CTInvariant t => ct_abs A t
  end.

Fixpoint ct_machine {A T F E G B} (M : machine A T F E) (t : ctower F E G B) : machine (ct_abs A t) T G B :=
  match t with
  | CTBase => M
  | CTLimit _ t => limit_machine (ct_machine M t)
  | CTMapFinal g t => finish_mapped g (ct_machine M t)
  | CTInvariant t => ct_machine M t
  end.

Fixpoint ct_init {A F E G B} (a : A) (t : ctower F E G B) : ct_abs A t :=
  match t with
  | CTBase => a
  | CTLimit n t => (n, ct_init a t)
  | CTMapFinal _ t => ct_init a t
  | CTInvariant t => ct_init a t
  end.

(** Under how many limits an error of the innermost consumer arrives. *)
Fixpoint ct_error {F E G B} (t : ctower F E G B) (e : E) : B :=
  match t in ctower _ _ _ B return B with
  | CTBase => e
  | CTLimit _ t => Some (ct_error t e)
  | CTMapFinal _ t => ct_error t e
  | CTInvariant t => ct_error t e
  end.

Fixpoint ct_final {F E G B} (t : ctower F E G B) : G -> F :=
  match t in ctower _ _ G _ return G -> F with
  | CTBase => fun f => f
  | CTLimit _ t => ct_final t
  | CTMapFinal g t => fun h => ct_final t (g h)
  | CTInvariant t => ct_final t
  end.

(** The machine state of the innermost consumer. *)
Fixpoint ct_core {A F E G B} (t : ctower F E G B) : ct_abs A t -> A :=
  match t return ct_abs A t -> A with
  | CTBase => fun a => a
  | CTLimit _ t => fun na => ct_core t (snd na)
  | CTMapFinal _ t => ct_core t
  | CTInvariant t => ct_core t
  end.

(** How many more items the limits let through. *)
Fixpoint ct_left {A F E G B} (t : ctower F E G B) : ct_abs A t -> option nat :=
  match t return ct_abs A t -> option nat with
  | CTBase => fun _ => None
  | CTLimit _ t => fun na =>
      match ct_left t (snd na) with None => Some (fst na) | Some m => Some (Nat.min (fst na) m) end
  | CTMapFinal _ t => ct_left t
  | CTInvariant t => ct_left t
  end.

(** The smallest limit, if there is one. *)
Fixpoint ct_limit {F E G B} (t : ctower F E G B) : option nat :=
  match t with
  | CTBase => None
  | CTLimit n t => match ct_limit t with None => Some n | Some m => Some (Nat.min n m) end
  | CTMapFinal _ t => ct_limit t
  | CTInvariant t => ct_limit t
  end.

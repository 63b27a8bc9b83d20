(** Specifications about memory. *)
From Coq Require Import List Arith.
From Verif Require Import Prelude Contracts BasicModel MemoryModel.
Import ListNotations.
Set Implicit Arguments.

(** An allocator gives at least what it was asked for, if it gives anything. *)
Record gives_enough {A} (L : allocator A) : Prop := {
  ge_fresh : forall n a k, snd (al_fresh L n a) = Some k -> n <= k;
  ge_grow : forall c n a k, snd (al_grow L c n a) = Some k -> n <= k
}.

(** An allocator that never refuses. *)
Record never_refuses {A} (L : allocator A) : Prop := {
  nr_fresh : forall n a, snd (al_fresh L n a) <> None;
  nr_grow : forall c n a, snd (al_grow L c n a) <> None;
  nr_shrink : forall c n a, snd (al_shrink L c n a) = true
}.

(** What an allocator has been asked for. *)
Inductive request : Type := Fresh (n : nat) | Grow (n : nat) | Shrink (n : nat).

(** An allocator that keeps a record of what it has been asked for. *)
Definition recorded {A} (L : allocator A) : allocator (A * list request) :=
  mk_allocator
    (fun n a => let (a', r) := al_fresh L n (fst a) in ((a', snd a ++ [Fresh n]), r))
    (fun c n a => let (a', r) := al_grow L c n (fst a) in ((a', snd a ++ [Grow n]), r))
    (fun c n a => let (a', r) := al_shrink L c n (fst a) in ((a', snd a ++ [Shrink n]), r)).

(** Gives exactly what it was asked for. *)
Definition exact_allocator : allocator unit :=
  mk_allocator (fun n a => (a, Some n)) (fun _ n a => (a, Some n)) (fun _ _ a => (a, true)).

(** The allocations of a vector of bytes in the standard library: exact at first, then at least doubling, and at least 8. *)
Definition std_allocator : allocator unit :=
  mk_allocator (fun n a => (a, Some n)) (fun c n a => (a, Some (Nat.max 8 (Nat.max (2 * c) n)))) (fun _ _ a => (a, true)).

(** Gives out so many items' worth of memory, and then refuses; always more than it was asked for. *)
Definition stingy_allocator : allocator nat :=
  mk_allocator
    (fun n left => if n + 1 <=? left then (left - (n + 1), Some (n + 1)) else (left, None))
    (fun c n left => if n + 1 <=? left + c then (left + c - (n + 1), Some (n + 1)) else (left, None))
    (fun c n left => (left + (c - n), negb (left =? 0))).

(** An [IntoVec] without its memory. *)
Definition plain {A T} (s : mem_into_vec A T) : into_vec T := mk_into_vec (vec_items (mi_v s)) (mi_consumed s).

(** The calls that may need memory. *)
Definition asks {T F} (o : cop T F) : bool :=
  match o with CConsume _ | CExpose | CBulkConsume _ => true | _ => false end.

(** All slots are taken, the capacity is too small for twice as many and one more, and the allocator refuses to give those. *)
Definition refused {A T} (L : allocator A) (s : mem_into_vec A T) : Prop :=
  mi_consumed s = length (vec_items (mi_v s)) /\ vec_capacity (mi_v s) < mi_consumed s * 2 + 1 /\
  snd (al_grow L (vec_capacity (mi_v s)) (mi_consumed s * 2 + 1) (mi_mem s)) = None.

(** Calls that fill an [IntoVec] without exposing slots. *)
Definition filling {T F} (o : cop T F) : Prop :=
  match o with CConsume _ | CFlush => True | CBulkConsume buf => buf <> [] | _ => False end.

(** An allocator whose first allocations are exact. *)
Definition exact_at_first {A} (L : allocator A) : Prop := forall n a, snd (al_fresh L n a) = Some n.

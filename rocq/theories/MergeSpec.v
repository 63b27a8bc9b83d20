(** Specification of Merge: interleavings. *)
From Coq Require Import Bool List Arith.
From Verif Require Import Prelude Traits MergeModel.
Import ListNotations.
Set Implicit Arguments.

(** [interleave xs ys zs]: [zs] consists of [xs] and [ys], each in order. *)
Inductive interleave {X} : list X -> list X -> list X -> Prop :=
| il_nil : interleave [] [] []
| il_left : forall x xs ys zs, interleave xs ys zs -> interleave (x :: xs) ys (x :: zs)
| il_right : forall y xs ys zs, interleave xs ys zs -> interleave xs (y :: ys) (y :: zs).

(** What comes out of a producer, end included. *)
Inductive event (T F E : Type) : Type :=
| Item (x : T)
| Last (l : res F E).
Arguments Item {T F E} x.
Arguments Last {T F E} l.

Definition stream {T F E} (xs : list T) (l : res F E) : list (event T F E) := map Item xs ++ [Last l].

Definition items {T F E} (evs : list (event T F E)) : list T :=
  flat_map (fun ev => match ev with Item x => [x] | Last _ => [] end) evs.

(** No error among the events. *)
Definition no_error {T F E} (evs : list (event T F E)) : Prop := forall e, ~ In (Last (Err e)) evs.

(** [p_yields P s xs l]: repeatedly calling [produce] on [s] yields the items [xs], then [l]. Nothing
    is assumed about calls after that. *)
Inductive p_yields {S T F E} (P : producer S T F E) : S -> list T -> res F E -> Prop :=
| p_yields_final : forall s s' f, p_produce P s = Ret (s', Ok (inr f)) -> p_yields P s [] (Ok f)
| p_yields_error : forall s s' e, p_produce P s = Ret (s', Err e) -> p_yields P s [] (Err e)
| p_yields_item : forall s s' x xs l, p_produce P s = Ret (s', Ok (inl x)) -> p_yields P s' xs l ->
    p_yields P s (x :: xs) l.

(** A caller that calls [produce] up to [n] times and stops at a last value. It gets the items, and the
    last value if there was one. *)
Fixpoint merge_calls {S1 S2 T F E} (P1 : producer S1 T F E) (P2 : producer S2 T F E) (n : nat)
    (sched : list choice) (m : merge S1 S2) : outcome (merge S1 S2 * list T * option (res F E)) :=
  match n with
  | 0 => Ret (m, [], None)
  | S n =>
      let* (m, sched, r) := merge_produce P1 P2 sched m in
      match r with
      | None => Ret (m, [], None)
      | Some (Ok (inl x)) =>
          let* (m, xs, l) := merge_calls P1 P2 n sched m in
          Ret (m, x :: xs, l)
      | Some (Ok (inr f)) => Ret (m, [], Some (Ok f))
      | Some (Err e) => Ret (m, [], Some (Err e))
      end
  end.

(** A producer that fails loudly when used after its end. *)
Definition guarded {S T F E} (P : producer S T F E) : producer (option S) T F E :=
  mk_producer (fun o =>
    match o with
    | None => Panic
    | Some s =>
        let* (s, r) := p_produce P s in
        match r with
        | Ok (inl _) => Ret (Some s, r)
        | _ => Ret (None, r)
        end
    end).

(** [produce] always returns. *)
Definition p_total {S T F E} (P : producer S T F E) : Prop := forall s, exists s' r, p_produce P s = Ret (s', r).

(** How often all futures are ready in a schedule. *)
Definition rounds (sched : list choice) : nat := length (filter (fun c => ready1 c && ready2 c) sched).

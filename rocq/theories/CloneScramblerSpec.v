(** Specification of scramblers for items with an arbitrary [Clone]: what may happen to each item on its way. *)
From Coq Require Import Bool List Arith.
From Verif Require Import Prelude Traits Contracts CloneModel CloneSpec ScramblerModel CloneScramblerModel.
Import ListNotations.
Set Implicit Arguments.

Section Carry.
  Context {W T : Type} (clone : T -> W -> W * option T).

  (** [carried xs w ys w']: every item of [xs] is moved as it is or replaced by a clone, in order; no [clone] panics. *)
  Inductive carried : list T -> W -> list T -> W -> Prop :=
  | carried_nil : forall w, carried [] w [] w
  | carried_move : forall x xs w ys w', carried xs w ys w' -> carried (x :: xs) w (x :: ys) w'
  | carried_clone : forall x xs w w1 y ys w', clone x w = (w1, Some y) -> carried xs w1 ys w' -> carried (x :: xs) w (y :: ys) w'.

  (** Reading ahead: from items [q] in the queue and [xs] still to come, to [q'] and [xs']. *)
  Definition reads (q xs : list T) (w : W) (q' xs' : list T) (w' : W) : Prop :=
    exists p p', xs = p ++ xs' /\ carried p w p' w' /\ q' = q ++ p'.

  (** The same, and then a [clone] panics: of one of the next items, after those before it were cloned in vain. *)
  Definition stumbles (q xs : list T) (w : W) (q' xs' : list T) (w' : W) : Prop :=
    exists w1 n ys, reads q xs w q' xs' w1 /\ breaks clone (firstn n xs') w1 ys w'.

  (** An item and what may come of it with at most one [clone]. *)
  Definition descends (x y : T) : Prop := y = x \/ exists w w', clone x w = (w', Some y).
End Carry.

(** ** The producer *)

(** How [produce] of a producer goes about it that may run [clone]: the next item is moved out or cloned; if that [clone]
    panics, it is still the next. *)
Definition gives {W S T F E} (clone : T -> W -> W * option T) (produce : S -> W -> outcome (S * W * caught (res (T + F) E)))
    (R : S -> list T -> res F E -> nat -> Prop) (D : S -> Prop) : Prop :=
  forall s xs l k w, R s xs l k ->
  match xs with
  | [] => exists s', produce s w = Ret (s', w, Done (report_last l)) /\ D s'
  | x :: xs' =>
      (exists s', produce s w = Ret (s', w, Done (Ok (inl x))) /\ R s' xs' l (k - 1)) \/
      (exists s' w' y, clone x w = (w', Some y) /\ produce s w = Ret (s', w', Done (Ok (inl y))) /\ R s' xs' l (k - 1)) \/
      (exists s' w', clone x w = (w', None) /\ produce s w = Ret (s', w', Unwound) /\ R s' xs l 0)
  end.

(** Calls, without [slurp] (for which see C28 and C29). *)
Inductive sop (T : Type) : Type :=
| SProduce
| SExpose
| SConsider (n : nat)
| SBulkProduce (buf : list T).
Arguments SProduce {T}.
Arguments SExpose {T}.
Arguments SConsider {T} n.

Inductive sans (T F E : Type) : Type :=
| SAItem (r : caught (res (T + F) E))
| SASlice (r : caught (res (list T + F) E))
| SAUnit (r : res unit E)
| SABuf (buf : list T) (r : caught (res (nat + F) E)).
Arguments SAItem {T F E} r.
Arguments SASlice {T F E} r.
Arguments SAUnit {T F E} r.
Arguments SABuf {T F E} buf r.

Definition s_do {W S T F E} (clone : T -> W -> W * option T) (dbg : bool) (fuel : nat)
    (produce : S -> W -> outcome (S * W * caught (res (T + F) E))) (P : bulk_producer S T F E) (o : sop T) (s : pscr S T F E) (w : W) : outcome (pscr S T F E * W * sans T F E) :=
  match o with
  | SProduce => let* (s, w, r) := pscr_produce_cloning clone dbg produce fuel P s w in Ret (s, w, SAItem r)
  | SExpose => let* (s, w, r) := pscr_expose_cloning clone dbg produce fuel P s w in Ret (s, w, SASlice r)
  | SConsider n => let* (s, r) := pscr_consider n s in Ret (s, w, SAUnit r)
  | SBulkProduce buf => let* (s, w, (buf, r)) := pscr_bulk_produce_cloning clone dbg produce fuel P buf s w in Ret (s, w, SABuf buf r)
  end.

(** Items in the queue, items still to come, items on display. *)
Inductive sabs (T : Type) : Type :=
| SAt (q xs : list T) (shown : nat)
| SEnded.
Arguments SEnded {T}.

Definition s_permitted {T} (a : sabs T) (o : sop T) : Prop :=
  match a, o with
  | SEnded, _ => False
  | SAt _ _ k, SConsider n => 1 <= k /\ n <= k
  | SAt _ _ _, SBulkProduce buf => buf <> []
  | SAt _ _ _, _ => True
  end.

Section Answers.
  Context {W T F E : Type} (clone : T -> W -> W * option T) (l : res F E).

  (** The end of the sequence, as the answer to a call that asks for items of any kind. *)
  Definition says_end {X} (r : res (X + F) E) : Prop := r = match l with Ok f => Ok (inr f) | Err e => Err e end.

  Definition s_answer (a : sabs T) (w : W) (o : sop T) (r : sans T F E) (a' : sabs T) (w' : W) : Prop :=
    match a with
    | SEnded => False
    | SAt q xs k =>
        match o, r with
        | SProduce, SAItem (Done r) =>
            (exists x y q' xs' w1, r = Ok (inl y) /\ reads clone q xs w (x :: q') xs' w1 /\ clone x w1 = (w', Some y) /\ a' = SAt q' xs' (k - 1)) \/
            (says_end r /\ q = [] /\ xs = [] /\ w' = w /\ a' = SEnded)
        | SProduce, SAItem Unwound =>
            (exists q' xs', stumbles clone q xs w q' xs' w' /\ a' = SAt q' xs' 0) \/
            (* the item in front is lost *)
            (exists x q' xs' w1, reads clone q xs w (x :: q') xs' w1 /\ clone x w1 = (w', None) /\ a' = SAt q' xs' 0)
        | SExpose, SASlice (Done r) =>
            (exists zs q' xs', r = Ok (inl zs) /\ zs <> [] /\ reads clone q xs w (zs ++ q') xs' w' /\ a' = SAt (zs ++ q') xs' (length zs)) \/
            (says_end r /\ q = [] /\ xs = [] /\ w' = w /\ a' = SEnded)
        | SExpose, SASlice Unwound => exists q' xs', stumbles clone q xs w q' xs' w' /\ a' = SAt q' xs' 0
        | SConsider n, SAUnit r => r = Ok tt /\ w' = w /\ a' = SAt (skipn n q) xs (k - n)
        | SBulkProduce buf, SABuf buf' (Done r) =>
            (exists n ys q' xs' w1, r = Ok (inl n) /\ 1 <= n <= length buf /\ n <= length q' /\ reads clone q xs w q' xs' w1 /\
               clones clone (firstn n q') w1 ys w' /\ buf' = ys ++ skipn n buf /\ a' = SAt (skipn n q') xs' 0) \/
            (says_end r /\ q = [] /\ xs = [] /\ w' = w /\ buf' = buf /\ a' = SEnded)
        | SBulkProduce buf, SABuf buf' Unwound =>
            (exists q' xs', stumbles clone q xs w q' xs' w' /\ buf' = buf /\ a' = SAt q' xs' 0) \/
            (exists n ys q' xs' w1, n <= length buf /\ reads clone q xs w q' xs' w1 /\ breaks clone (firstn n q') w1 ys w' /\
               buf' = ys ++ skipn (length ys) buf /\ a' = SAt q' xs' 0)
        | _, _ => False
        end
    end.

  Context {S : Type} (dbg : bool) (fuel : nat) (produce : S -> W -> outcome (S * W * caught (res (T + F) E))) (P : bulk_producer S T F E).

  (** Calls within the rules; panics of [clone] are caught and the scrambler is used again. *)
  Inductive s_conforms : list (sop T) -> pscr S T F E -> W -> sabs T -> Prop :=
  | s_conforms_nil : forall s w a, s_conforms [] s w a
  | s_conforms_broken : forall o ops s w a, ~ s_permitted a o -> s_conforms (o :: ops) s w a
  | s_conforms_step : forall o ops s w a s' w' r a', s_permitted a o -> s_do clone dbg fuel produce P o s w = Ret (s', w', r) ->
      s_answer a w o r a' w' -> s_conforms ops s' w' a' -> s_conforms (o :: ops) s w a.

  Inductive s_history : pscr S T F E -> W -> sabs T -> list (sop T * sans T F E) -> pscr S T F E -> W -> sabs T -> Prop :=
  | s_history_nil : forall s w a, s_history s w a [] s w a
  | s_history_step : forall s w a o s1 w1 r a1 h s2 w2 a2, s_permitted a o -> s_do clone dbg fuel produce P o s w = Ret (s1, w1, r) ->
      s_answer a w o r a1 w1 -> s_history s1 w1 a1 h s2 w2 a2 -> s_history s w a ((o, r) :: h) s2 w2 a2.
End Answers.

(** What the caller got, if [shown] is on display at first. *)
Fixpoint s_emitted {T F E} (shown : list T) (h : list (sop T * sans T F E)) : list T :=
  match h with
  | [] => []
  | (SProduce, SAItem (Done (Ok (inl y)))) :: h => y :: s_emitted (tl shown) h
  | (SExpose, SASlice (Done (Ok (inl zs)))) :: h => s_emitted zs h
  | (SConsider n, _) :: h => firstn n shown ++ s_emitted (skipn n shown) h
  | (SBulkProduce _, SABuf buf (Done (Ok (inl n)))) :: h => firstn n buf ++ s_emitted [] h
  | _ :: h => s_emitted [] h
  end.

(** How many calls of [produce] were cut short by a panic. *)
Definition s_torn {T F E} (h : list (sop T * sans T F E)) : nat :=
  length (filter (fun e => match e with (SProduce, SAItem Unwound) => true | _ => false end) h).

(** What came of an item: some descendant, after at most two clones, or nothing. *)
Inductive fate (T : Type) : Type := Came (y : T) | Gone.
Arguments Came {T} y.
Arguments Gone {T}.
Definition came {T} (fs : list (fate T)) : list T := flat_map (fun f => match f with Came y => [y] | Gone => [] end) fs.
Definition gone {T} (fs : list (fate T)) : nat := length (filter (fun f => match f with Gone => true | _ => false end) fs).
Definition meets {W T} (clone : T -> W -> W * option T) (x : T) (f : fate T) : Prop :=
  match f with Came y => exists z, descends clone x z /\ descends clone z y | Gone => True end.

(** [thinned n xs ys]: [ys] is [xs] without [n] of its items. *)
Inductive thinned {T : Type} : nat -> list T -> list T -> Prop :=
| thinned_nil : thinned 0 [] []
| thinned_keep : forall n x xs ys, thinned n xs ys -> thinned n (x :: xs) (x :: ys)
| thinned_drop : forall n x xs ys, thinned n xs ys -> thinned (S n) (x :: xs) ys.

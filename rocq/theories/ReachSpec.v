(** Using an adaptor and what is inside it by turns. *)
From Coq Require Import Bool List Arith.
From Verif Require Import Prelude Traits Contracts AdaptorSpec BufferedSpec.
Import ListNotations.
Set Implicit Arguments.

(** The rules for callers of producers, judged from calls and answers alone; [k] items are on display. *)
Fixpoint p_client {T F E} (k : nat) (h : list (pop T * pans T F E)) : Prop :=
  match h with
  | [] => True
  | (o, r) :: h =>
      match o with PConsider n => 1 <= k /\ n <= k | PBulkProduce buf => buf <> [] | _ => True end /\
      if p_ends r then h = [] else p_client (p_shown k o r) h
  end.

(** No final value, no error. *)
Definition p_goes_on {T F E} (h : list (pop T * pans T F E)) : Prop := Forall (fun c => p_ends (snd c) = false) h.
Definition c_goes_on {T F E} (h : list (cop T F * cans E)) : Prop := Forall (fun c => c_ends (fst c) (snd c) = false) h.

(** Items by the way they took: [true] for the adaptor, [false] for the direct one. *)
Definition way {T} (b : bool) (log : list (bool * T)) : list T := map snd (filter (fun c => eqb (fst c) b) log).
Definition tagged {T} (b : bool) (xs : list T) : list (bool * T) := map (pair b) xs.

(** [p_mixed outer inner ended get set s log s']: rounds of calls of the adaptor and rounds of calls of the producer inside, in any order.
    [get] and [set] reach inside. The producer inside may only be used as long as it has not ended. Slots do not stay on display from one round
    to the next. The adaptor is not asked to slurp. *)
Inductive p_mixed {S0 S T F E} (outer : bulk_producer S0 T F E) (inner : bulk_producer S T F E) (ended : S -> Prop)
    (get : S0 -> S) (set : S -> S0 -> S0) (s : S0) : list (bool * T) -> S0 -> Prop :=
| p_mixed_nil : p_mixed outer inner ended get set s [] s
| p_mixed_outer : forall log s1 h s2, p_mixed outer inner ended get set s log s1 ->
    p_trace outer s1 h s2 -> p_client 0 h -> p_goes_on h -> ~ In PSlurp (map fst h) ->
    p_mixed outer inner ended get set s (log ++ tagged true (p_emitted [] h)) s2
| p_mixed_inner : forall log s1 h i, p_mixed outer inner ended get set s log s1 ->
    ~ ended (get s1) -> p_trace inner (get s1) h i -> p_client 0 h -> p_goes_on h ->
    p_mixed outer inner ended get set s (log ++ tagged false (p_emitted [] h)) (set i s1).

Inductive c_mixed {S0 S T F E} (outer : bulk_consumer S0 T F E) (inner : bulk_consumer S T F E)
    (get : S0 -> S) (set : S -> S0 -> S0) (s : S0) : list (bool * T) -> S0 -> Prop :=
| c_mixed_nil : c_mixed outer inner get set s [] s
| c_mixed_outer : forall log s1 h s2, c_mixed outer inner get set s log s1 ->
    c_trace outer s1 h s2 -> c_client 0 [] h -> c_goes_on h ->
    c_mixed outer inner get set s (log ++ tagged true (c_consumed [] h)) s2
| c_mixed_inner : forall log s1 h i, c_mixed outer inner get set s log s1 ->
    c_trace inner (get s1) h i -> c_client 0 [] h -> c_goes_on h ->
    c_mixed outer inner get set s (log ++ tagged false (c_consumed [] h)) (set i s1).

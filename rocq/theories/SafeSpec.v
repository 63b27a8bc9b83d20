(** Objects that never panic as long as their callers obey the rules. This is the least that can be asked of an object, and says nothing
    about its answers. The rules are those of RulesSpec.v. *)
From Coq Require Import Bool List Arith.
From Coq.Init Require Import Byte.
From Verif Require Import Prelude Traits ScramblerModel MergeModel CodecModel TowerModel Contracts AdaptorSpec RulesSpec.
Import ListNotations.
Set Implicit Arguments.

(** Running out of fuel is not a panic. *)
Definition calm {S M O A} (may : M -> O -> bool) (saw : M -> O -> A -> M) (call : O -> S -> outcome (S * A)) (s : S) (m : M) : Prop :=
  forall ops, obeying may saw call ops m s <> Panic.

(** [slurps]: whether the callers may call [slurp] at all (some objects do not tolerate that). *)
Definition p_calls {T} (slurps : bool) (m : pmon) (o : pop T) : bool :=
  p_may m o && match o with PSlurp => slurps | _ => true end.
(** Nobody can write beyond the end of an exposed slice. *)
Definition c_calls {T F} (m : cmon) (o : cop T F) : bool :=
  c_may m o && match o with CWrite ys => length ys <=? cm_shown m | _ => true end.

Definition calm_producer {S T F E} (slurps : bool) (P : bulk_producer S T F E) (s : S) : Prop :=
  calm (p_calls slurps) (@p_saw T F E) (p_do P) s pmon_new.
Definition calm_consumer {S T F E} (C : bulk_consumer S T F E) (s : S) : Prop :=
  calm (@c_calls T F) (@c_saw T F E) (c_do C) s cmon_new.

(** Objects without bulk methods. *)
Definition calm_buffered_producer {S T F E} (slurps : bool) (P : buffered_producer S T F E) (s : S) : Prop :=
  calm (fun (over : bool) o => negb over && match o with BSlurp => slurps | BProduce => true end) (fun _ _ r => bp_ends r) (bp_do P) s false.
Definition calm_buffered_consumer {S T F E} (C : buffered_consumer S T F E) (s : S) : Prop :=
  calm (fun (over : bool) (_ : bcop T F) => negb over) (fun _ o r => bc_ends o r) (bc_do C) s false.
Definition calm_merge {S1 S2 T F E} (P1 : producer S1 T F E) (P2 : producer S2 T F E) (m : merge S1 S2) : Prop :=
  calm (fun (over : bool) (_ : list choice) => negb over)
    (fun _ _ (a : option (res (T + F) E)) => match a with None | Some (Ok (inl _)) => false | _ => true end)
    (fun sched m => let* (m, _, a) := merge_produce P1 P2 sched m in Ret (m, a)) m false.

(** What Rust's types enforce, and what the documentation of [bulk_consume] promises. *)
Definition keeps_length {S T F E} (P : bulk_producer S T F E) : Prop :=
  forall buf s s' buf' r, p_bulk_produce P buf s = Ret (s', (buf', r)) -> length buf' = length buf.
Definition honest_count {S T F E} (C : bulk_consumer S T F E) : Prop :=
  forall buf s s' n, c_bulk_consume C buf s = Ret (s', Ok n) -> n <= length buf.

(** A computation that does not panic, and with a result such that [Q]. *)
Definition safely {X} (Q : X -> Prop) (o : outcome X) : Prop :=
  match o with Ret x => Q x | Panic => False | NoFuel => True end.

(** The objects of a pipe that can still be used when it returns: [unfinished] says that the final value was not passed on. *)
Definition pipe_leaves {SP SC X PE CE} (unfinished : X -> Prop) (IP : SP -> Prop) (IC : SC -> Prop)
    (x : SP * SC * res X (pipe_error PE CE)) : Prop :=
  match snd x with
  | Ok r => unfinished r -> IP (fst (fst x)) /\ IC (snd (fst x))
  | Err (PipeProducer _) => IC (snd (fst x))
  | Err (PipeConsumer _) => True
  end.

(** Codecs that cause no panic, and that leave the object usable unless they report an error. *)
Definition calm_encode {V} (encode : encode_fn V) : Prop :=
  forall S F E (C : bulk_consumer S byte F E) v s, calm_consumer C s ->
  safely (fun x => is_ok (snd x) = true -> calm_consumer C (fst x)) (encode _ _ _ C v s).
Definition calm_decode {V O} (decode : decode_fn V O) : Prop :=
  forall S F E (P : bulk_producer S byte F E) slurps s, keeps_length P -> calm_producer slurps P s ->
  safely (fun x => is_ok (snd x) = true -> calm_producer slurps P (fst x)) (decode _ _ _ P s).

(** Towers: whether [slurp] may be called, and what is needed for that. *)
Fixpoint pt_slurps {T F E G} (slurps : bool) (t : ptower T F E G) : bool :=
  match t with
  | PTBase => slurps
  | PTLimit _ t => pt_slurps slurps t
  | PTMapFinal _ t => pt_slurps slurps t
  | PTInvariant t => pt_slurps slurps t
  | PTScramble _ _ _ _ _ t => false
  end.
Fixpoint pt_fits {T F E G} (slurps : bool) (t : ptower T F E G) : Prop :=
  match t with
  | PTBase => True
  | PTLimit _ t => pt_fits slurps t
  | PTMapFinal _ t => pt_fits slurps t
  | PTInvariant t => pt_fits slurps t
  | PTScramble _ _ _ pat cap t => 0 < cap /\ (pt_slurps slurps t = true \/ ~ In ScSlurp pat) /\ pt_fits slurps t
  end.

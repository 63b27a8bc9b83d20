(** Objects that cannot be told apart by callers who obey the rules of RulesSpec.v. *)
From Coq Require Import Bool List Arith.
From Coq.Init Require Import Byte.
From Verif Require Import Prelude Traits ScramblerModel MergeModel CodecModel TowerModel Contracts AdaptorSpec RulesSpec SafeSpec.
Import ListNotations.
Set Implicit Arguments.

(** The same calls get the same answers, or make both objects panic. *)
Definition alike {S1 S2 M O A} (may : M -> O -> bool) (saw : M -> O -> A -> M) (call1 : O -> S1 -> outcome (S1 * A)) (call2 : O -> S2 -> outcome (S2 * A))
    (m : M) (s1 : S1) (s2 : S2) : Prop :=
  forall ops, omap snd (obeying may saw call1 ops m s1) = omap snd (obeying may saw call2 ops m s2).

(** [slurps]: whether the callers may call [slurp]. *)
Definition alike_producer {S1 S2 T F E} (slurps : bool) (P1 : bulk_producer S1 T F E) (P2 : bulk_producer S2 T F E) : S1 -> S2 -> Prop :=
  alike (p_calls slurps) (@p_saw T F E) (p_do P1) (p_do P2) pmon_new.
Definition alike_consumer {S1 S2 T F E} (C1 : bulk_consumer S1 T F E) (C2 : bulk_consumer S2 T F E) : S1 -> S2 -> Prop :=
  alike (@c_may T F) (@c_saw T F E) (c_do C1) (c_do C2) cmon_new.

(** Objects without bulk methods. *)
Definition alike_buffered_producer {S1 S2 T F E} (slurps : bool) (P1 : buffered_producer S1 T F E) (P2 : buffered_producer S2 T F E) : S1 -> S2 -> Prop :=
  alike (fun (over : bool) o => negb over && match o with BSlurp => slurps | BProduce => true end) (fun _ _ r => bp_ends r) (bp_do P1) (bp_do P2) false.
Definition alike_buffered_consumer {S1 S2 T F E} (C1 : buffered_consumer S1 T F E) (C2 : buffered_consumer S2 T F E) : S1 -> S2 -> Prop :=
  alike (fun (over : bool) (_ : bcop T F) => negb over) (fun _ o r => bc_ends o r) (bc_do C1) (bc_do C2) false.
Definition alike_merge {S1 S2 S1' S2' T F E} (P1 : producer S1 T F E) (P2 : producer S2 T F E) (P1' : producer S1' T F E) (P2' : producer S2' T F E)
    : merge S1 S2 -> merge S1' S2' -> Prop :=
  alike (fun (over : bool) (_ : list choice) => negb over)
    (fun _ _ (a : option (res (T + F) E)) => match a with None | Some (Ok (inl _)) => false | _ => true end)
    (fun sched m => let* (m, _, a) := merge_produce P1 P2 sched m in Ret (m, a))
    (fun sched m => let* (m, _, a) := merge_produce P1' P2' sched m in Ret (m, a)) false.

(** Two computations that end in the same way, with results such that [Q]. *)
Definition both {X Y} (Q : X -> Y -> Prop) (o1 : outcome X) (o2 : outcome Y) : Prop :=
  match o1, o2 with
  | Ret x, Ret y => Q x y
  | Panic, Panic => True
  | NoFuel, NoFuel => True
  | _, _ => False
  end.
Definition linked {S1 S2 X} (R : S1 -> S2 -> Prop) (x : S1 * X) (y : S2 * X) : Prop := R (fst x) (fst y) /\ snd x = snd y.

(** Two pipes with the same result; the objects that can still be used are alike again. *)
Definition pipes_alike {SP1 SP2 SC1 SC2 X PE CE} (unfinished : X -> Prop) (IP : SP1 -> SP2 -> Prop) (IC : SC1 -> SC2 -> Prop)
    (x : SP1 * SC1 * res X (pipe_error PE CE)) (y : SP2 * SC2 * res X (pipe_error PE CE)) : Prop :=
  snd x = snd y /\
  match snd x with
  | Ok r => unfinished r -> IP (fst (fst x)) (fst (fst y)) /\ IC (snd (fst x)) (snd (fst y))
  | Err (PipeProducer _) => IC (snd (fst x)) (snd (fst y))
  | Err (PipeConsumer _) => True
  end.

(** Codecs are generic over the objects they are used with, and cannot look at their states: related states give the same results and
    related states. (In Rust this is a consequence of the type; here it has to be demanded.) *)
Definition related_producers {S1 S2 T F E} (R : S1 -> S2 -> Prop) (P1 : bulk_producer S1 T F E) (P2 : bulk_producer S2 T F E) : Prop :=
  forall o s1 s2, R s1 s2 -> both (linked R) (p_do P1 o s1) (p_do P2 o s2).
Definition related_consumers {S1 S2 T F E} (R : S1 -> S2 -> Prop) (C1 : bulk_consumer S1 T F E) (C2 : bulk_consumer S2 T F E) : Prop :=
  forall o s1 s2, R s1 s2 -> both (linked R) (c_do C1 o s1) (c_do C2 o s2).
Definition uniform_encode {V} (encode : encode_fn V) : Prop :=
  forall S1 S2 F E (C1 : bulk_consumer S1 byte F E) (C2 : bulk_consumer S2 byte F E) (R : S1 -> S2 -> Prop), related_consumers R C1 C2 ->
  forall v s1 s2, R s1 s2 -> both (linked R) (encode _ _ _ C1 v s1) (encode _ _ _ C2 v s2).
Definition uniform_decode {V O} (decode : decode_fn V O) : Prop :=
  forall S1 S2 F E (P1 : bulk_producer S1 byte F E) (P2 : bulk_producer S2 byte F E) (R : S1 -> S2 -> Prop), related_producers R P1 P2 ->
  forall s1 s2, R s1 s2 -> both (linked R) (decode _ _ _ P1 s1) (decode _ _ _ P2 s2).

(** A tower without its invariant checkers. *)
Fixpoint pt_unchecked {T F E G} (t : ptower T F E G) : ptower T F E G :=
  match t with
  | PTBase => PTBase
  | PTLimit n t => PTLimit n (pt_unchecked t)
  | PTMapFinal g t => PTMapFinal g (pt_unchecked t)
  | PTInvariant t => pt_unchecked t
  | PTScramble dbg fuel x0 pat cap t => PTScramble dbg fuel x0 pat cap (pt_unchecked t)
  end.
Fixpoint ct_unchecked {F E G B} (t : ctower F E G B) : ctower F E G B :=
  match t with
  | CTBase => CTBase
  | CTLimit n t => CTLimit n (ct_unchecked t)
  | CTMapFinal g t => CTMapFinal g (ct_unchecked t)
  | CTInvariant t => ct_unchecked t
  end.
(** Scramblers call [slurp] only where that makes no difference. *)
Fixpoint pt_slurps_well {T F E G} (slurps : bool) (t : ptower T F E G) : Prop :=
  match t with
  | PTBase => True
  | PTLimit _ t => pt_slurps_well slurps t
  | PTMapFinal _ t => pt_slurps_well slurps t
  | PTInvariant t => pt_slurps_well slurps t
  | PTScramble _ _ _ pat _ t => (pt_slurps slurps t = true \/ ~ In ScSlurp pat) /\ pt_slurps_well slurps t
  end.

(** The bulk methods are the default ones, as for all types of the repository; this matters where a law removes an adaptor. *)
Definition default_producer {S T F E} (P : bulk_producer S T F E) : Prop :=
  forall buf s, p_bulk_produce P buf s = default_bulk_produce (p_expose P) (p_consider P) buf s.
Definition default_consumer {S T F E} (C : bulk_consumer S T F E) : Prop :=
  forall buf s, c_bulk_consume C buf s = default_bulk_consume (c_expose C) (c_write C) (c_consume_slots C) buf s.

(** For the laws about nested adaptors: the final value of a Limit of a Limit, and what two MapItems do to an item, [f] first. *)
Definition either_limit {F} (x : option (option F)) : option F := match x with Some (Some f) => Some f | _ => None end.
Definition after {A B D W X} (f : W -> A -> W * B) (g : X -> B -> X * D) (wx : W * X) (a : A) : (W * X) * D :=
  let (w, b) := f (fst wx) a in let (x, d) := g (snd wx) b in ((w, x), d).

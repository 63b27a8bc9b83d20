(** Objects that never panic even if their callers drop futures that are not ready. The rule of lib.rs 33 forbids to use an object after that;
    here it is broken on purpose, all other rules are those of RulesSpec.v. *)
From Coq Require Import Bool List Arith.
From Coq.Init Require Import Byte.
From Verif Require Import Prelude Traits ScramblerModel AsyncModel AsyncAdaptorModel AsyncSpec TowerModel Contracts AdaptorSpec RulesSpec SafeSpec AbideSpec.
Import ListNotations.
Set Implicit Arguments.

(** What is left of a future that has been polled some number of times and is dropped then: its output, if it was ready. *)
Definition left_of {S X} (x : S * poll_result X (fut S X)) : S * option X :=
  (fst x, match snd x with Ready r => Some r | Pending _ _ => None end).

(** Callers come with a list of calls, each with the number of times its future is polled at most. [gave_up] is what the caller thinks of
    the object after dropping the future of a call. *)
Definition hardy {S M O A} (may : M -> O -> bool) (saw : M -> O -> A -> M) (gave_up : M -> O -> M) (future : O -> fut S A) (s : S) (m : M) : Prop :=
  calm (fun m (on : O * nat) => may m (fst on))
    (fun m on a => match a with Some a => saw m (fst on) a | None => gave_up m (fst on) end)
    (fun on s => omap left_of (polls (snd on) (future (fst on)) s)) s m.

(** After a dropped call nothing is on display any more, and no slot has been written to; a consumer must not be used after a dropped [close]. *)
Definition p_gave_up {T} (m : pmon) (o : pop T) : pmon := mk_pmon false 0.
Definition c_gave_up {T F} (m : cmon) (o : cop T F) : cmon := mk_cmon match o with CClose _ => true | _ => false end 0 0.

Definition hardy_producer {S T F E} (slurps : bool) (P : a_bulk_producer S T F E) (s : S) : Prop :=
  hardy (p_calls slurps) (@p_saw T F E) p_gave_up (ap_future P) s pmon_new.
Definition hardy_consumer {S T F E} (C : a_bulk_consumer S T F E) (s : S) : Prop :=
  hardy (@c_calls T F) (@c_saw T F E) c_gave_up (ac_future C) s cmon_new.

(** Objects without bulk methods. *)
Definition hardy_buffered_producer {S T F E} (slurps : bool) (P : a_buffered_producer S T F E) (s : S) : Prop :=
  hardy (fun (over : bool) o => negb over && match o with BSlurp => slurps | BProduce => true end) (fun _ _ r => bp_ends r) (fun _ _ => false)
    (abp_future P) s false.
Definition hardy_buffered_consumer {S T F E} (C : a_buffered_consumer S T F E) (s : S) : Prop :=
  hardy (fun (over : bool) (_ : bcop T F) => negb over) (fun _ o r => bc_ends o r) (fun _ o => match o with BClose _ => true | _ => false end)
    (abc_future C) s false.

(** [f] does not panic, however often it is polled: if it is ready, then with a state and an output such that [Done]; if it is not and is dropped,
    it leaves a state such that [Dropped]. *)
Definition endures {S X} (Dropped : S -> Prop) (Done : S -> X -> Prop) (f : fut S X) (s : S) : Prop :=
  forall n, safely (fun x => match snd x with Ready r => Done (fst x) r | Pending _ _ => Dropped (fst x) end) (polls n f s).

(** Pipes that are dropped leave both objects usable, unless the consumer was being closed. *)
Definition pipe_dropped {SP SC T F CE} (IP : SP -> Prop) (IC : SC -> Prop) (C : a_consumer SC T F CE) (x : SP * SC) : Prop :=
  (IP (fst x) /\ IC (snd x)) \/ (exists f sc, IC sc /\ In (snd x) (suspended (ac_close C f) sc)).

(** Codecs. *)
Definition hardy_encode {V} (encode : a_encode_fn V) : Prop :=
  forall S F E (C : a_bulk_consumer S byte F E) v s, hardy_consumer C s ->
  endures (hardy_consumer C) (fun s' r => is_ok r = true -> hardy_consumer C s') (encode _ _ _ C v) s.
Definition hardy_decode {V O} (decode : a_decode_fn V O) : Prop :=
  forall S F E (P : a_bulk_producer S byte F E) slurps s, keeps_length (blocking_bulk_producer P) -> hardy_producer slurps P s ->
  endures (hardy_producer slurps P) (fun s' r => is_ok r = true -> hardy_producer slurps P s') (decode _ _ _ P) s.

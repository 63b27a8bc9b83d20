(** What the documentation of the traits demands of callers (ufotofu/src/lib.rs, the paragraphs "Invariants" of 93-537), as
    monitors that look at calls and answers only. Neither the objects nor the code that is judged by them need to be lawful. *)
From Coq Require Import Bool List Arith.
From Coq.Init Require Import Byte.
From Verif Require Import Prelude QueueModel Traits AdaptorModel ScramblerModel MergeModel CodecModel Contracts AdaptorSpec.
Import ListNotations.
Set Implicit Arguments.

(** ** Monitors *)

(** What matters of the past of a producer: whether it is over, and how many items are on display and not yet marked as produced. *)
Record pmon : Type := mk_pmon { pm_over : bool; pm_shown : nat }.
Definition pmon_new : pmon := mk_pmon false 0.

(** No call after the end; only items on display are marked as produced. *)
Definition p_may {T} (m : pmon) (o : pop T) : bool :=
  negb (pm_over m) && match o with PConsider n => n <=? pm_shown m | _ => true end.
Definition p_saw {T F E} (m : pmon) (o : pop T) (r : pans T F E) : pmon :=
  mk_pmon (p_ends r) (p_shown (pm_shown m) o r).

(** For a consumer also how many of the slots on display, from the first one on, have been written to. *)
Record cmon : Type := mk_cmon { cm_over : bool; cm_shown : nat; cm_written : nat }.
Definition cmon_new : cmon := mk_cmon false 0 0.

(** No call after an error or [close]; only slots that have been written to are consumed. *)
Definition c_may {T F} (m : cmon) (o : cop T F) : bool :=
  negb (cm_over m) && match o with CConsumeSlots n => n <=? cm_written m | _ => true end.
Definition c_saw {T F E} (m : cmon) (o : cop T F) (r : cans E) : cmon :=
  match o with
  | CWrite ys => mk_cmon (cm_over m) (cm_shown m) (Nat.max (cm_written m) (Nat.min (cm_shown m) (length ys)))
  | _ => mk_cmon (c_ends o r) (c_shown (cm_shown m) o r)
           match o with CFlush => cm_written m | CConsumeSlots n => cm_written m - n | _ => 0 end
  end.

(** The same for objects without bulk methods. *)
Definition bp_ends {T F E} (r : bpans T F E) : bool :=
  match r with BPItem (Ok (inl _)) | BPUnit (Ok _) => false | _ => true end.
Definition bc_ends {T F E} (o : bcop T F) (r : res unit E) : bool :=
  match o, r with
  | BClose _, _ | _, Err _ => true
  | _, Ok _ => false
  end.

(** ** Objects that do not tolerate violations *)

Section Guard.
  (** What happens when a rule is broken. The theorems hold for each choice; as a panic is not exhaustion of fuel, this means that
      no rule is broken, even by a computation that does not return. *)
  Context (bad : forall X : Type, outcome X).

  Definition guarded {S M X} (may : bool) (saw : X -> M) (call : outcome (S * X)) : outcome (S * M * X) :=
    if may then let* (s, x) := call in Ret (s, saw x, x) else bad _.

  Definition guard_producer {S T F E} (P : bulk_producer S T F E) : bulk_producer (S * pmon) T F E :=
    mk_bulk_producer
      (mk_buffered_producer
        (mk_producer (fun sm => guarded (p_may (snd sm) (@PProduce T)) (fun r => p_saw (snd sm) PProduce (PAItem r)) (p_produce P (fst sm))))
        (fun sm => guarded (p_may (snd sm) (@PSlurp T)) (fun r => p_saw (snd sm) PSlurp (@PAUnit T F E r)) (p_slurp P (fst sm))))
      (fun sm => guarded (p_may (snd sm) (@PExpose T)) (fun r => p_saw (snd sm) PExpose (PASlice r)) (p_expose P (fst sm)))
      (fun n sm => guarded (p_may (snd sm) (@PConsider T n)) (fun r => p_saw (snd sm) (PConsider n) (@PAUnit T F E r)) (p_consider P n (fst sm)))
      (fun buf sm => guarded (p_may (snd sm) (PBulkProduce buf)) (fun br => p_saw (snd sm) (PBulkProduce buf) (PABuf (fst br) (snd br)))
                       (p_bulk_produce P buf (fst sm))).

  Definition guard_consumer {S T F E} (C : bulk_consumer S T F E) : bulk_consumer (S * cmon) T F E :=
    mk_bulk_consumer
      (mk_buffered_consumer
        (mk_consumer
          (fun x sm => guarded (c_may (snd sm) (@CConsume T F x)) (fun r => c_saw (snd sm) (@CConsume T F x) (CAUnit r)) (c_consume C x (fst sm)))
          (fun f sm => guarded (c_may (snd sm) (@CClose T F f)) (fun r => c_saw (snd sm) (@CClose T F f) (CAUnit r)) (c_close C f (fst sm))))
        (fun sm => guarded (c_may (snd sm) (@CFlush T F)) (fun r => c_saw (snd sm) (@CFlush T F) (CAUnit r)) (c_flush C (fst sm))))
      (fun sm => guarded (c_may (snd sm) (@CExpose T F)) (fun r => c_saw (snd sm) (@CExpose T F) (CASlots r)) (c_expose C (fst sm)))
      (fun ys sm => (c_write C ys (fst sm), c_saw (snd sm) (@CWrite T F ys) (@CANone E)))
      (fun n sm => guarded (c_may (snd sm) (@CConsumeSlots T F n)) (fun r => c_saw (snd sm) (@CConsumeSlots T F n) (CAUnit r)) (c_consume_slots C n (fst sm)))
      (fun buf sm => guarded (c_may (snd sm) (@CBulkConsume T F buf)) (fun r => c_saw (snd sm) (@CBulkConsume T F buf) (CANat r))
                       (c_bulk_consume C buf (fst sm))).
End Guard.

(** ** Callers that obey *)

(** Makes the calls [ops] for as long as they are permitted; the state, the monitor and the answers in the end. *)
Fixpoint obeying {S M O A} (may : M -> O -> bool) (saw : M -> O -> A -> M) (call : O -> S -> outcome (S * A)) (ops : list O) (m : M) (s : S)
  : outcome (S * M * list A) :=
  match ops with
  | [] => Ret (s, m, [])
  | o :: ops =>
      if may m o then
        let* (s, a) := call o s in
        let* (s, m, answers) := obeying may saw call ops (saw m o a) s in
        Ret (s, m, a :: answers)
      else Ret (s, m, [])
  end.

Definition p_obeying {S T F E} (P : bulk_producer S T F E) := obeying (@p_may T) (@p_saw T F E) (p_do P).
Definition c_obeying {S T F E} (C : bulk_consumer S T F E) := obeying (@c_may T F) (@c_saw T F E) (c_do C).

(** For objects without bulk methods all that matters is whether they are over. *)
Definition bp_do {S T F E} (P : buffered_producer S T F E) (o : bpop) (s : S) : outcome (S * bpans T F E) :=
  match o with
  | BProduce => let* (s, r) := p_produce P s in Ret (s, BPItem r)
  | BSlurp => let* (s, r) := p_slurp P s in Ret (s, BPUnit r)
  end.
Definition bc_do {S T F E} (C : buffered_consumer S T F E) (o : bcop T F) (s : S) : outcome (S * res unit E) :=
  match o with
  | BConsume x => c_consume C x s
  | BClose f => c_close C f s
  | BFlush => c_flush C s
  end.
Definition bp_obeying {S T F E} (P : buffered_producer S T F E) :=
  obeying (fun (over : bool) (_ : bpop) => negb over) (fun _ _ r => bp_ends r) (bp_do P).
Definition bc_obeying {S T F E} (C : buffered_consumer S T F E) :=
  obeying (fun (over : bool) (_ : bcop T F) => negb over) (fun _ o r => bc_ends o r) (bc_do C).

(** Callers of a Merge: each call is given by the schedule under which its future is polled; a call without an answer (the schedule was
    too short) may be taken up by the next one. *)
Definition merge_obeying {S1 S2 T F E} (P1 : producer S1 T F E) (P2 : producer S2 T F E) :=
  obeying (fun (over : bool) (_ : list choice) => negb over)
    (fun _ _ (a : option (res (T + F) E)) => match a with None | Some (Ok (inl _)) => false | _ => true end)
    (fun sched m => let* (m, _, a) := merge_produce P1 P2 sched m in Ret (m, a)).

(** Forgetting what the monitors of inner objects say. *)
Definition unmon {S M X} (x : S * M * X) : S * X := (fst (fst x), snd x).
Definition unmon2 {SP SC X} (x : (SP * pmon) * (SC * cmon) * X) : SP * SC * X := (fst (fst (fst x)), fst (snd (fst x)), snd x).
Definition lim_forget {S M} (s : limit (S * M)) : limit S := mk_limit (fst (lim_inner s)) (lim_remaining s).
Definition wf_forget {S M G} (s : with_fun (S * M) G) : with_fun S G := mk_with_fun (fst (wf_inner s)) (wf_fun s).
Definition inv_forget {S M} (s : invariant (S * M)) : invariant S := mk_invariant (fst (inv_inner s)) (inv_active s) (inv_exposed s).
Definition mi_forget {S M W} (s : map_item (S * M) W) : map_item S W := mk_map_item (fst (mi_inner s)) (mi_closure s).
Definition ps_forget {S M T F E} (s : pscr (S * M) T F E) : pscr S T F E :=
  mk_pscr (fst (ps_inner s)) (ps_buffer s) (ps_last s) (ps_operations s) (ps_index s).
Definition cs_forget {S M T} (s : cscr (S * M) T) : cscr S T := mk_cscr (fst (cs_inner s)) (cs_buffer s) (cs_operations s) (cs_index s).
Definition rel_forget {S M RT} (s : relative (S * M) RT) : relative S RT := mk_relative (fst (rel_inner s)) (relative_to s).
Definition mg_forget {S1 S2 M} (m : merge (S1 * M) (S2 * M)) : merge S1 S2 :=
  mk_merge (option_map fst (produce_future1 m)) (option_map fst (produce_future2 m)).
Definition seen {S S' M X} (forget : S' -> S) (x : S' * M * X) : S * M * X := (forget (fst (fst x)), snd (fst x), snd x).

(** An object on top of a guarded one answers as the same object on top of the one without guards; and while the outer object is not over,
    neither is the inner one (so that it may be taken out and used on). *)
Definition respects {S S' M A} (forget : S' -> S) (over : M -> bool) (inner_over : S' -> bool) (guarded : outcome (S' * M * list A))
    (plain : outcome (S * M * list A)) : Prop :=
  omap (seen forget) guarded = plain /\ forall s m answers, guarded = Ret (s, m, answers) -> over m = false -> inner_over s = false.

(** Which of its two objects are over when a pipe returns: [finished] says whether a result means that the final value was passed on. *)
Definition pipe_done {SP SC X PE CE} (finished : X -> bool) (x : (SP * pmon) * (SC * cmon) * res X (pipe_error PE CE)) : Prop :=
  match snd x with
  | Ok r => pm_over (snd (fst (fst x))) = finished r /\ cm_over (snd (snd (fst x))) = finished r
  | Err (PipeProducer _) => pm_over (snd (fst (fst x))) = true /\ cm_over (snd (snd (fst x))) = false
  | Err (PipeConsumer _) => cm_over (snd (snd (fst x))) = true
  end.

(** A history without the writes into exposed slots. *)
Definition no_writes {T F E} (h : list (cop T F * cans E)) : list (cop T F * cans E) :=
  filter (fun x => match fst x with CWrite _ => false | _ => true end) h.

(** A codec that obeys the rules of the object it is called with, and that leaves this object usable unless it reports an error. *)
Definition obedient_encode {V} (encode : encode_fn V) : Prop :=
  forall (bad : forall X : Type, outcome X) S F E (C : bulk_consumer S byte F E) v s m, cm_over m = false ->
  omap unmon (encode _ _ _ (guard_consumer bad C) v (s, m)) = encode _ _ _ C v s /\
  forall x, encode _ _ _ (guard_consumer bad C) v (s, m) = Ret x -> is_ok (snd x) = true -> cm_over (snd (fst x)) = false.
Definition obedient_decode {V O} (decode : decode_fn V O) : Prop :=
  forall (bad : forall X : Type, outcome X) S F E (P : bulk_producer S byte F E) s m, pm_over m = false ->
  omap unmon (decode _ _ _ (guard_producer bad P) (s, m)) = decode _ _ _ P s /\
  forall x, decode _ _ _ (guard_producer bad P) (s, m) = Ret x -> is_ok (snd x) = true -> pm_over (snd (fst x)) = false.

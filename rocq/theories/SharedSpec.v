(** What sharing an object behind a mutex should amount to. *)
From Coq Require Import Bool List Arith.
From Coq.Init Require Import Byte.
From Verif Require Import Prelude Traits Contracts AdaptorSpec CodecModel CodecSpec SharedModel.
Import ListNotations.
Set Implicit Arguments.

(** Calling functions in turn: all results, and how it ends. *)
Fixpoint in_turn {S X} (fs : list (S -> outcome (S * X))) (s : S) : list X * outcome S :=
  match fs with
  | [] => ([], Ret s)
  | f :: fs =>
      match f s with
      | Ret (s', x) => (x :: fst (in_turn fs s'), snd (in_turn fs s'))
      | Panic => ([], Panic)
      | NoFuel => ([], NoFuel)
      end
  end.

(** [p] does what [f] does, in however many steps. *)
Definition implements {S X} (p : prog S X) (f : S -> outcome (S * X)) : Prop := forall s, run_prog p s = f s.

(** A call on its own, without anybody else using the shared object. *)
Definition call_alone {S X L K} (sem : L -> K -> L * body S X) (lc : L * K) : S -> outcome (S * X) :=
  match snd (sem (fst lc) (snd lc)) with
  | Local x => fun s => Ret (s, x)
  | Locked p => run_prog p
  end.

(** Executions in which nobody drops the future of a call that has the lock. *)
Inductive careful {S X L K} (sem : L -> K -> L * body S X) : system S X L K -> list event -> system S X L K -> Prop :=
| careful_nil : forall y, careful sem y [] y
| careful_step : forall y ev y1 evs y', sys_step sem ev y = Ret y1 -> (forall i, ev = Drop i -> sy_holder y <> Some i) ->
    careful sem y1 evs y' -> careful sem y (ev :: evs) y'.

(** The calls of a task, each with the state of its adaptor. *)
Fixpoint with_locals {S X L K} (sem : L -> K -> L * body S X) (l : L) (cs : list K) : list (L * K) :=
  match cs with
  | [] => []
  | c :: cs => (l, c) :: with_locals sem (fst (sem l c)) cs
  end.

(** The call that a task is about to make or making. *)
Definition pending {S X L K} (t : task S X L K) : list (L * K) :=
  match tk_now t with
  | Idle => []
  | Waiting l c _ => [(l, c)]
  | Running l c _ => [(l, c)]
  end.

(** Those calls in a log that used the lock and were not cancelled. *)
Definition locked_calls {S X L K} (sem : L -> K -> L * body S X) (log : list (L * K * option X)) : list (L * K * X) :=
  flat_map (fun e => match e with
                     | (l, c, Some x) => match snd (sem l c) with Locked _ => [(l, c, x)] | Local _ => [] end
                     | (_, _, None) => []
                     end) log.

(** The part of the history that belongs to task [i]. *)
Definition of_task {A} (i : nat) (hist : list (nat * A)) : list A := map snd (filter (fun e => fst e =? i) hist).

(** All tasks have made all their calls. *)
Definition all_done {S X L K} (y : system S X L K) : Prop :=
  Forall (fun t : task S X L K => tk_now t = Idle /\ tk_calls t = []) (sy_tasks y).

Definition is_poll (ev : event) : Prop := match ev with Poll _ => True | Drop _ => False end.

(** The calls of a task, each with the reference value that the task set last. [set c] is the value that [c] sets. *)
Fixpoint with_references {RT K} (set : K -> option RT) (r : RT) (cs : list K) : list (RT * K) :=
  match cs with
  | [] => []
  | c :: cs => (r, c) :: with_references set (match set c with Some r' => r' | None => r end) cs
  end.

(** The calls in a log that were completed and that [uses] the shared object. *)
Definition completed {X L K} (uses : K -> bool) (log : list (L * K * option X)) : list (L * K * X) :=
  flat_map (fun e => match e with (l, c, Some x) => if uses c then [(l, c, x)] else [] | _ => [] end) log.

Definition ecall_sets {RT V F} (c : ecall RT V F) : option RT := match c with ESetRelativeTo r => Some r | _ => None end.
Definition ecall_uses {RT V F} (c : ecall RT V F) : bool := match c with EConsume _ | EFlush => true | _ => false end.
Definition dcall_sets {RT} (c : dcall RT) : option RT := match c with DSetRelativeTo r => Some r | _ => None end.
Definition dcall_uses {RT} (c : dcall RT) : bool := match c with DSetRelativeTo _ => false | _ => true end.

(** ** Encoders *)

(** Feeding complete encodings (and flushes) into a machine, in order; stops at the first error. *)
Fixpoint feed_calls {A V F E RT} (M : machine A byte F E) (enc : RT -> V -> list byte) (cs : list (RT * ecall RT V F)) (a : A)
  : A * option E :=
  match cs with
  | [] => (a, None)
  | (r, EConsume v) :: cs =>
      match m_feed M (enc r v) a with
      | (a', _, None) => feed_calls M enc cs a'
      | (a', _, Some e) => (a', Some e)
      end
  | (_, EFlush) :: cs =>
      match m_flush M a with
      | (a', Ok _) => feed_calls M enc cs a'
      | (a', Err e) => (a', Some e)
      end
  | _ :: cs => feed_calls M enc cs a
  end.

(** The encodings of the values consumed by calls. *)
Definition call_bytes {V F RT} (enc : RT -> V -> list byte) (cs : list (RT * ecall RT V F)) : list byte :=
  flat_map (fun rc => match snd rc with EConsume v => enc (fst rc) v | _ => [] end) cs.

(** ** Decoders *)

(** The calls of [produce] in a history, each after setting the reference value. *)
Definition produce_events {RT} (cs : list (RT * dcall RT)) : list (rel_event RT unit) :=
  flat_map (fun rc => match snd rc with DProduce => [RelSet (fst rc); RelItem tt] | _ => [] end) cs.

(** The items among answers. *)
Definition answered_items {V F E} (rs : list (bpans V F E)) : list V :=
  flat_map (fun r => match r with BPItem (Ok (inl v)) => [v] | _ => [] end) rs.

Definition answer_continues {V F E} (r : bpans V F E) : Prop :=
  match r with BPItem (Ok (inl _)) => True | BPUnit (Ok _) => True | _ => False end.

(** The calls of a Decoder that nobody else uses, with the reference value that it has at that time. *)
Definition decoder_call {S V F E O L RT} (decode : L -> decode_fn V O) (P : bulk_producer S byte F E) (lc : L * dcall RT)
  : S -> outcome (S * bpans V F (decode_error F E O)) :=
  match snd lc with
  | DProduce => fun s => let* (s', x) := decoder_produce (decode (fst lc)) P s in Ret (s', BPItem x)
  | DSlurp => fun s => let* (s', x) := decoder_slurp P s in Ret (s', BPUnit x)
  | DSetRelativeTo _ => fun s => Ret (s, BPUnit (Ok tt))
  end.

(** What a call to a shared encoder does, said with the encoders that own their consumer; only [close] differs. *)
Definition encoder_call {S V F E L RT} (encode : L -> encode_fn V) (C : bulk_consumer S byte F E) (lc : L * ecall RT V F)
  : S -> outcome (S * res unit E) :=
  match snd lc with
  | EConsume v => c_consume (encoder (encode (fst lc)) C) v
  | EFlush => c_flush (encoder (encode (fst lc)) C)
  | EClose _ | ESetRelativeTo _ => fun s => Ret (s, Ok tt)
  end.

(** Model of the two BulkScramblers.

    Paths are relative to ufotofu/src. [dbg] says whether debug assertions are enabled. Loops take
    fuel. The operations are the model of [Box<[..]>]; [NonZeroUsize] is a [nat], non-zero being a
    hypothesis of the theorems where it matters. *)
From Coq Require Import Bool List Arith.
From Verif Require Import Prelude QueueModel Traits BasicModel.
Import ListNotations.
Set Implicit Arguments.

(** [debug_assert!(b)] in front of [k]. *)
Definition debug_assert {X} (dbg b : bool) (k : outcome X) : outcome X :=
  if dbg && negb b then Panic else k.

(** ** Producer *)

(** [BulkProducerOperation], producer/bulk_scrambler.rs 20-24. *)
Inductive pscr_op : Type :=
| ScProduce
| ScConsiderProduced (n : nat)
| ScSlurp.

(** producer/bulk_scrambler.rs 26-34. *)
Fixpoint pscr_make_progress (ops : list pscr_op) : bool :=
  match ops with
  | [] => false
  | ScSlurp :: ops => pscr_make_progress ops
  | _ :: _ => true
  end.

(** producer/bulk_scrambler.rs 114-130. *)
Record pscr (S T F E : Type) : Type := mk_pscr {
  ps_inner : S;
  ps_buffer : fixed T;
  ps_last : option (res F E);
  ps_operations : list pscr_op;
  ps_index : nat
}.

Section ProducerScrambler.
  Context {S T F E : Type} (dbg : bool).
  Notation state := (pscr S T F E).

  (** [new_with_capacity], producer/bulk_scrambler.rs 62-78; [new], 53-55, uses capacity 2048. *)
  Definition pscr_new_with_capacity (default : T) (inner : S) (operations : list pscr_op) (capacity : nat) : state :=
    let operations := if pscr_make_progress operations then operations else operations ++ [ScProduce] in
    mk_pscr inner (fixed_new default capacity) None operations 0.

  Definition ps_with_inner (i : S) (s : state) : state :=
    mk_pscr i (ps_buffer s) (ps_last s) (ps_operations s) (ps_index s).
  Definition ps_with_buffer (b : fixed T) (s : state) : state :=
    mk_pscr (ps_inner s) b (ps_last s) (ps_operations s) (ps_index s).
  Definition ps_with_last (l : option (res F E)) (s : state) : state :=
    mk_pscr (ps_inner s) (ps_buffer s) l (ps_operations s) (ps_index s).

  Definition ps_len (s : state) : nat := q_len (fixed_queue T) (ps_buffer s).

  (** producer/bulk_scrambler.rs 138-140. *)
  Definition pscr_advance (s : state) : outcome state :=
    let* i := cmod (ps_index s + 1) (length (ps_operations s)) in
    Ret (mk_pscr (ps_inner s) (ps_buffer s) (ps_last s) (ps_operations s) i).

  (** producer/bulk_scrambler.rs 271-313. *)
  Definition pscr_perform_operation (P : bulk_producer S T F E) (s : state)
    : outcome (state * res (option F) E) :=
    debug_assert dbg (ps_len s <? fixed_capacity (ps_buffer s)) (
    let* op := index (ps_index s) (ps_operations s) in
    match op with
    | ScProduce =>
        let* (i, r) := p_produce P (ps_inner s) in
        let s := ps_with_inner i s in
        match r with
        | Err e => Ret (s, Err e)
        | Ok (inr fin) => Ret (s, Ok (Some fin))
        | Ok (inl item) =>
            let* (b, yay) := q_enqueue (fixed_queue T) item (ps_buffer s) in
            debug_assert dbg (match yay with None => true | Some _ => false end) (
            let* s := pscr_advance (ps_with_buffer b s) in
            Ret (s, Ok None))
        end
    | ScConsiderProduced n =>
        let* (i, r) := p_expose P (ps_inner s) in
        let s := ps_with_inner i s in
        match r with
        | Err e => Ret (s, Err e)
        | Ok (inr fin) => Ret (s, Ok (Some fin))
        | Ok (inl slots) =>
            let* available_slots := slice_to (Nat.min (length slots) n) slots in
            let* (b, amount) := q_bulk_enqueue (fixed_queue T) available_slots (ps_buffer s) in
            let s := ps_with_buffer b s in
            let* (i, r) := p_consider P amount (ps_inner s) in
            let s := ps_with_inner i s in
            match r with
            | Err e => Ret (s, Err e)
            | Ok tt =>
                let* s := pscr_advance s in
                Ret (s, Ok None)
            end
        end
    | ScSlurp =>
        let* (i, r) := p_slurp P (ps_inner s) in
        let s := ps_with_inner i s in
        match r with
        | Err e => Ret (s, Err e)
        | Ok tt =>
            let* s := pscr_advance s in
            Ret (s, Ok None)
        end
    end).

  (** The loop of [fill_queue], producer/bulk_scrambler.rs 252-260. *)
  Fixpoint pscr_fill_loop (fuel : nat) (P : bulk_producer S T F E) (s : state) : outcome state :=
    match fuel with
    | 0 => NoFuel
    | Datatypes.S fuel =>
        match ps_last s with
        | Some _ => Ret s
        | None =>
            if ps_len s <? fixed_capacity (ps_buffer s) then
              let* (s, r) := pscr_perform_operation P s in
              match r with
              | Ok None => pscr_fill_loop fuel P s
              | Ok (Some fin) => pscr_fill_loop fuel P (ps_with_last (Some (Ok fin)) s)
              | Err err => pscr_fill_loop fuel P (ps_with_last (Some (Err err)) s)
              end
            else Ret s
        end
    end.

  (** [fill_queue], producer/bulk_scrambler.rs 247-269. *)
  Definition pscr_fill_queue (fuel : nat) (P : bulk_producer S T F E) (s : state)
    : outcome (state * option (res F E)) :=
    let* s := pscr_fill_loop fuel P s in
    if ps_len s =? 0 then Ret (ps_with_last None s, ps_last s)
    else Ret (s, None).

  (** producer/bulk_scrambler.rs 165-177. *)
  Definition pscr_produce (fuel : nat) (P : bulk_producer S T F E) (s : state)
    : outcome (state * res (T + F) E) :=
    let* (s, l) := pscr_fill_queue fuel P s in
    match l with
    | Some (Ok fin) => Ret (s, Ok (inr fin))
    | Some (Err e) => Ret (s, Err e)
    | None =>
        let* (b, o) := q_dequeue (fixed_queue T) (ps_buffer s) in
        let* item := expect o in
        Ret (ps_with_buffer b s, Ok (inl item))
    end.

  (** The second half of [slurp], producer/bulk_scrambler.rs 199-209. *)
  Definition pscr_slurp_inner (P : bulk_producer S T F E) (s : state) : outcome (state * res unit E) :=
    let* (i, r) := p_slurp P (ps_inner s) in
    let s := ps_with_inner i s in
    match r with
    | Err err =>
        if ps_len s =? 0 then Ret (s, Err err)
        else Ret (ps_with_last (Some (Err err)) s, Ok tt)
    | Ok tt => Ret (s, Ok tt)
    end.

  (** producer/bulk_scrambler.rs 184-210. *)
  Definition pscr_slurp (fuel : nat) (P : bulk_producer S T F E) (s : state) : outcome (state * res unit E) :=
    let* (s, l) := pscr_fill_queue fuel P s in
    match l with
    | Some (Err err) => Ret (s, Err err)
    | Some (Ok fin) => pscr_slurp_inner P (ps_with_last (Some (Ok fin)) s)
    | None => pscr_slurp_inner P s
    end.

  (** producer/bulk_scrambler.rs 217-234. *)
  Definition pscr_expose (fuel : nat) (P : bulk_producer S T F E) (s : state)
    : outcome (state * res (list T + F) E) :=
    let* (s, l) := pscr_fill_queue fuel P s in
    match l with
    | Some (Ok fin) => Ret (s, Ok (inr fin))
    | Some (Err e) => Ret (s, Err e)
    | None =>
        let* (b, o) := q_expose_items (fixed_queue T) (ps_buffer s) in
        let* slots := expect o in
        Ret (ps_with_buffer b s, Ok (inl slots))
    end.

  (** producer/bulk_scrambler.rs 236-240. *)
  Definition pscr_consider (amount : nat) (s : state) : outcome (state * res unit E) :=
    let* b := q_consider_dequeued (fixed_queue T) amount (ps_buffer s) in
    Ret (ps_with_buffer b s, Ok tt).

  Definition pscr_producer (fuel : nat) (P : bulk_producer S T F E) : bulk_producer state T F E :=
    bulk_producer_of (pscr_produce fuel P) (pscr_slurp fuel P) (pscr_expose fuel P) pscr_consider.
End ProducerScrambler.

(** ** Consumer *)

(** [BulkConsumerOperation], consumer/bulk_scrambler.rs 19-23. *)
Inductive cscr_op : Type :=
| ScConsume
| ScConsumeSlots (n : nat)
| ScFlush.

(** consumer/bulk_scrambler.rs 25-33. *)
Fixpoint cscr_make_progress (ops : list cscr_op) : bool :=
  match ops with
  | [] => false
  | ScFlush :: ops => cscr_make_progress ops
  | _ :: _ => true
  end.

(** consumer/bulk_scrambler.rs 112-127. *)
Record cscr (S T : Type) : Type := mk_cscr {
  cs_inner : S;
  cs_buffer : fixed T;
  cs_operations : list cscr_op;
  cs_index : nat
}.

Section ConsumerScrambler.
  Context {S T F E : Type} (dbg : bool) (default : T).
  Notation state := (cscr S T).

  (** [new_with_capacity], consumer/bulk_scrambler.rs 61-76; [new], 52-54, uses capacity 2048. *)
  Definition cscr_new_with_capacity (inner : S) (operations : list cscr_op) (capacity : nat) : state :=
    let operations := if cscr_make_progress operations then operations else operations ++ [ScConsume] in
    mk_cscr inner (fixed_new default capacity) operations 0.

  Definition cs_with_inner (i : S) (s : state) : state :=
    mk_cscr i (cs_buffer s) (cs_operations s) (cs_index s).
  Definition cs_with_buffer (b : fixed T) (s : state) : state :=
    mk_cscr (cs_inner s) b (cs_operations s) (cs_index s).

  Definition cs_len (s : state) : nat := q_len (fixed_queue T) (cs_buffer s).

  (** consumer/bulk_scrambler.rs 135-137. *)
  Definition cscr_advance (s : state) : outcome state :=
    let* i := cmod (cs_index s + 1) (length (cs_operations s)) in
    Ret (mk_cscr (cs_inner s) (cs_buffer s) (cs_operations s) i).

  (** consumer/bulk_scrambler.rs 244-287. The inner slots are overwritten by [bulk_dequeue]; what they
      contained before is irrelevant, since only the items that [bulk_dequeue] wrote are kept by
      [c_write]. *)
  Definition cscr_perform_operation (C : bulk_consumer S T F E) (s : state) : outcome (state * res unit E) :=
    debug_assert dbg (0 <? cs_len s) (
    let* op := index (cs_index s) (cs_operations s) in
    let* (s, r) :=
      match op with
      | ScConsume =>
          let* (b, o) := q_dequeue (fixed_queue T) (cs_buffer s) in
          let* item := expect o in
          let s := cs_with_buffer b s in
          let* (i, r) := c_consume C item (cs_inner s) in
          Ret (cs_with_inner i s, r)
      | ScConsumeSlots n =>
          let* (i, r) := c_expose C (cs_inner s) in
          let s := cs_with_inner i s in
          match r with
          | Err e => Ret (s, Err e)
          | Ok slots_len =>
              let* (b, (slots, amount)) :=
                q_bulk_dequeue (fixed_queue T) (repeat default (Nat.min slots_len n)) (cs_buffer s) in
              let s := cs_with_buffer b s in
              let i := c_write C (firstn amount slots) (cs_inner s) in
              let* (i, r) := c_consume_slots C amount i in
              Ret (cs_with_inner i s, r)
          end
      | ScFlush =>
          let* (i, r) := c_flush C (cs_inner s) in
          Ret (cs_with_inner i s, r)
      end in
    match r with
    | Err e => Ret (s, Err e)
    | Ok tt =>
        let* s := cscr_advance s in
        Ret (s, Ok tt)
    end).

  (** [while self.buffer.len() > 0 { self.perform_operation().await?; }],
      consumer/bulk_scrambler.rs 163-165, 176-178, 191-193, 220-222. *)
  Fixpoint cscr_drain (fuel : nat) (C : bulk_consumer S T F E) (s : state) : outcome (state * res unit E) :=
    match fuel with
    | 0 => NoFuel
    | Datatypes.S fuel =>
        if 0 <? cs_len s then
          let* (s, r) := cscr_perform_operation C s in
          match r with
          | Err e => Ret (s, Err e)
          | Ok tt => cscr_drain fuel C s
          end
        else Ret (s, Ok tt)
    end.

  (** consumer/bulk_scrambler.rs 160-172. *)
  Definition cscr_consume (fuel : nat) (C : bulk_consumer S T F E) (item : T) (s : state)
    : outcome (state * res unit E) :=
    let* (b, o) := q_enqueue (fixed_queue T) item (cs_buffer s) in
    let s := cs_with_buffer b s in
    match o with
    | None => Ret (s, Ok tt)
    | Some item =>
        let* (s, r) := cscr_drain fuel C s in
        match r with
        | Err e => Ret (s, Err e)
        | Ok tt =>
            let* (b, yay) := q_enqueue (fixed_queue T) item (cs_buffer s) in
            debug_assert dbg (match yay with Some _ => true | None => false end) (
            Ret (cs_with_buffer b s, Ok tt))
        end
    end.

  (** consumer/bulk_scrambler.rs 174-182. *)
  Definition cscr_close (fuel : nat) (C : bulk_consumer S T F E) (fin : F) (s : state)
    : outcome (state * res unit E) :=
    let* (s, r) := cscr_drain fuel C s in
    match r with
    | Err e => Ret (s, Err e)
    | Ok tt =>
        let* (i, r) := c_close C fin (cs_inner s) in
        Ret (cs_with_inner i s, r)
    end.

  (** consumer/bulk_scrambler.rs 189-197. *)
  Definition cscr_flush (fuel : nat) (C : bulk_consumer S T F E) (s : state) : outcome (state * res unit E) :=
    let* (s, r) := cscr_drain fuel C s in
    match r with
    | Err e => Ret (s, Err e)
    | Ok tt =>
        let* (i, r) := c_flush C (cs_inner s) in
        Ret (cs_with_inner i s, r)
    end.

  (** consumer/bulk_scrambler.rs 204-231. *)
  Definition cscr_expose (fuel : nat) (C : bulk_consumer S T F E) (s : state) : outcome (state * res nat E) :=
    if cs_len s <? fixed_capacity (cs_buffer s) then
      let* (b, o) := q_expose_slots (fixed_queue T) (cs_buffer s) in
      let* slots := expect o in
      Ret (cs_with_buffer b s, Ok slots)
    else
      let* (s, r) := cscr_drain fuel C s in
      match r with
      | Err e => Ret (s, Err e)
      | Ok tt =>
          let* (b, o) := q_expose_slots (fixed_queue T) (cs_buffer s) in
          let* slots := expect o in
          Ret (cs_with_buffer b s, Ok slots)
      end.

  (** The caller writing into the exposed slots. *)
  Definition cscr_write (ys : list T) (s : state) : state :=
    cs_with_buffer (q_write (fixed_queue T) ys (cs_buffer s)) s.

  (** consumer/bulk_scrambler.rs 233-237. *)
  Definition cscr_consume_slots (amount : nat) (s : state) : outcome (state * res unit E) :=
    let* b := q_consider_enqueued (fixed_queue T) amount (cs_buffer s) in
    Ret (cs_with_buffer b s, Ok tt).

  Definition cscr_consumer (fuel : nat) (C : bulk_consumer S T F E) : bulk_consumer state T F E :=
    bulk_consumer_of (cscr_consume fuel C) (cscr_close fuel C) (cscr_flush fuel C) (cscr_expose fuel C)
      cscr_write cscr_consume_slots.
End ConsumerScrambler.

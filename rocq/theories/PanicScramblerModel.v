(** Model of the two BulkScramblers around producers and consumers any of whose methods may panic.

    As in PanicModel.v the state that a panic leaves behind is part of the answer, since the caller may catch the panic and go on.
    Panics of the scrambler itself (its assertions) remain [Panic], as in ScramblerModel.v, of which this is the extension. Cloning an item does
    not panic here (for clones that do see CloneScramblerModel.v and CloneSinkModel.v). Paths are relative to ufotofu/src. *)
From Coq Require Import Bool List Arith.
From Verif Require Import Prelude QueueModel Traits BasicModel CloneModel ScramblerModel PanicModel.
Import ListNotations.
Set Implicit Arguments.

Section ProducerScrambler.
  Context {W S T F E : Type} (dbg : bool).
  Notation state := (pscr S T F E).

  (** producer/bulk_scrambler.rs 271-313. *)
  Definition pscr_perform_operation_v (P : v_producer W S T F E) (s : state) (w : W) : outcome (state * W * caught (res (option F) E)) :=
    debug_assert dbg (ps_len s <? fixed_capacity (ps_buffer s)) (
    let* op := index (ps_index s) (ps_operations s) in
    match op with
    | ScProduce =>
        let* (i, w, r) := v_produce P (ps_inner s) w in
        let s := ps_with_inner i s in
        match r with
        | Unwound => Ret (s, w, Unwound)
        | Done (Err e) => Ret (s, w, Done (Err e))
        | Done (Ok (inr fin)) => Ret (s, w, Done (Ok (Some fin)))
        | Done (Ok (inl item)) =>
            let* (b, yay) := q_enqueue (fixed_queue T) item (ps_buffer s) in
            debug_assert dbg (match yay with None => true | Some _ => false end) (
            let* s := pscr_advance (ps_with_buffer b s) in
            Ret (s, w, Done (Ok None)))
        end
    | ScConsiderProduced n =>
        let* (i, w, r) := v_expose P (ps_inner s) w in
        let s := ps_with_inner i s in
        match r with
        | Unwound => Ret (s, w, Unwound)
        | Done (Err e) => Ret (s, w, Done (Err e))
        | Done (Ok (inr fin)) => Ret (s, w, Done (Ok (Some fin)))
        | Done (Ok (inl slots)) =>
            let* available_slots := slice_to (Nat.min (length slots) n) slots in
            let* (b, amount) := q_bulk_enqueue (fixed_queue T) available_slots (ps_buffer s) in
            let s := ps_with_buffer b s in
            let* (i, w, r) := v_consider P amount (ps_inner s) w in
            let s := ps_with_inner i s in
            match r with
            | Unwound => Ret (s, w, Unwound)
            | Done (Err e) => Ret (s, w, Done (Err e))
            | Done (Ok tt) =>
                let* s := pscr_advance s in
                Ret (s, w, Done (Ok None))
            end
        end
    | ScSlurp =>
        let* (i, w, r) := v_slurp P (ps_inner s) w in
        let s := ps_with_inner i s in
        match r with
        | Unwound => Ret (s, w, Unwound)
        | Done (Err e) => Ret (s, w, Done (Err e))
        | Done (Ok tt) =>
            let* s := pscr_advance s in
            Ret (s, w, Done (Ok None))
        end
    end).

  (** The loop of [fill_queue], producer/bulk_scrambler.rs 252-260. *)
  Fixpoint pscr_fill_loop_v (fuel : nat) (P : v_producer W S T F E) (s : state) (w : W) : outcome (state * W * caught unit) :=
    match fuel with
    | 0 => NoFuel
    | Datatypes.S fuel =>
        match ps_last s with
        | Some _ => Ret (s, w, Done tt)
        | None =>
            if ps_len s <? fixed_capacity (ps_buffer s) then
              let* (s, w, r) := pscr_perform_operation_v P s w in
              match r with
              | Unwound => Ret (s, w, Unwound)
              | Done (Ok None) => pscr_fill_loop_v fuel P s w
              | Done (Ok (Some fin)) => pscr_fill_loop_v fuel P (ps_with_last (Some (Ok fin)) s) w
              | Done (Err err) => pscr_fill_loop_v fuel P (ps_with_last (Some (Err err)) s) w
              end
            else Ret (s, w, Done tt)
        end
    end.

  (** [fill_queue], producer/bulk_scrambler.rs 247-269. *)
  Definition pscr_fill_queue_v (fuel : nat) (P : v_producer W S T F E) (s : state) (w : W) : outcome (state * W * caught (option (res F E))) :=
    let* (s, w, r) := pscr_fill_loop_v fuel P s w in
    match r with
    | Unwound => Ret (s, w, Unwound)
    | Done tt => if ps_len s =? 0 then Ret (ps_with_last None s, w, Done (ps_last s)) else Ret (s, w, Done None)
    end.

  (** producer/bulk_scrambler.rs 165-177. *)
  Definition pscr_produce_v (fuel : nat) (P : v_producer W S T F E) (s : state) (w : W) : outcome (state * W * caught (res (T + F) E)) :=
    let* (s, w, l) := pscr_fill_queue_v fuel P s w in
    match l with
    | Unwound => Ret (s, w, Unwound)
    | Done (Some (Ok fin)) => Ret (s, w, Done (Ok (inr fin)))
    | Done (Some (Err e)) => Ret (s, w, Done (Err e))
    | Done None =>
        let* (b, o) := q_dequeue (fixed_queue T) (ps_buffer s) in
        let* item := expect o in
        Ret (ps_with_buffer b s, w, Done (Ok (inl item)))
    end.

  (** The second half of [slurp], producer/bulk_scrambler.rs 199-209. *)
  Definition pscr_slurp_inner_v (P : v_producer W S T F E) (s : state) (w : W) : outcome (state * W * caught (res unit E)) :=
    let* (i, w, r) := v_slurp P (ps_inner s) w in
    let s := ps_with_inner i s in
    match r with
    | Unwound => Ret (s, w, Unwound)
    | Done (Err err) =>
        if ps_len s =? 0 then Ret (s, w, Done (Err err))
        else Ret (ps_with_last (Some (Err err)) s, w, Done (Ok tt))
    | Done (Ok tt) => Ret (s, w, Done (Ok tt))
    end.

  (** producer/bulk_scrambler.rs 184-210. *)
  Definition pscr_slurp_v (fuel : nat) (P : v_producer W S T F E) (s : state) (w : W) : outcome (state * W * caught (res unit E)) :=
    let* (s, w, l) := pscr_fill_queue_v fuel P s w in
    match l with
    | Unwound => Ret (s, w, Unwound)
    | Done (Some (Err err)) => Ret (s, w, Done (Err err))
    | Done (Some (Ok fin)) => pscr_slurp_inner_v P (ps_with_last (Some (Ok fin)) s) w
    | Done None => pscr_slurp_inner_v P s w
    end.

  (** producer/bulk_scrambler.rs 217-234. *)
  Definition pscr_expose_v (fuel : nat) (P : v_producer W S T F E) (s : state) (w : W) : outcome (state * W * caught (res (list T + F) E)) :=
    let* (s, w, l) := pscr_fill_queue_v fuel P s w in
    match l with
    | Unwound => Ret (s, w, Unwound)
    | Done (Some (Ok fin)) => Ret (s, w, Done (Ok (inr fin)))
    | Done (Some (Err e)) => Ret (s, w, Done (Err e))
    | Done None =>
        let* (b, o) := q_expose_items (fixed_queue T) (ps_buffer s) in
        let* slots := expect o in
        Ret (ps_with_buffer b s, w, Done (Ok (inl slots)))
    end.

  (** producer/bulk_scrambler.rs 236-240. *)
  Definition pscr_consider_v (amount : nat) (s : state) (w : W) : outcome (state * W * caught (res unit E)) :=
    let* b := q_consider_dequeued (fixed_queue T) amount (ps_buffer s) in
    Ret (ps_with_buffer b s, w, Done (Ok tt)).

  Definition pscr_producer_v (fuel : nat) (P : v_producer W S T F E) : v_producer W state T F E :=
    mk_v_producer (pscr_produce_v fuel P) (pscr_slurp_v fuel P) (pscr_expose_v fuel P) pscr_consider_v.
End ProducerScrambler.

Section ConsumerScrambler.
  Context {W S T F E : Type} (dbg : bool) (default : T).
  Notation state := (cscr S T).

  (** consumer/bulk_scrambler.rs 244-287. The item or the items have left the buffer when the inner method that takes them runs. *)
  Definition cscr_perform_operation_v (C : v_consumer W S T F E) (s : state) (w : W) : outcome (state * W * caught (res unit E)) :=
    debug_assert dbg (0 <? cs_len s) (
    let* op := index (cs_index s) (cs_operations s) in
    let* (s, w, r) :=
      match op with
      | ScConsume =>
          let* (b, o) := q_dequeue (fixed_queue T) (cs_buffer s) in
          let* item := expect o in
          let s := cs_with_buffer b s in
          let* (i, w, r) := v_consume C item (cs_inner s) w in
          Ret (cs_with_inner i s, w, r)
      | ScConsumeSlots n =>
          let* (i, w, r) := v_expose_slots C (cs_inner s) w in
          let s := cs_with_inner i s in
          match r with
          | Unwound => Ret (s, w, Unwound)
          | Done (Err e) => Ret (s, w, Done (Err e))
          | Done (Ok slots_len) =>
              let* (b, (slots, amount)) := q_bulk_dequeue (fixed_queue T) (repeat default (Nat.min slots_len n)) (cs_buffer s) in
              let s := cs_with_buffer b s in
              let i := v_write C (firstn amount slots) (cs_inner s) in
              let* (i, w, r) := v_consume_slots C amount i w in
              Ret (cs_with_inner i s, w, r)
          end
      | ScFlush =>
          let* (i, w, r) := v_flush C (cs_inner s) w in
          Ret (cs_with_inner i s, w, r)
      end in
    match r with
    | Done (Ok tt) =>
        let* s := cscr_advance s in
        Ret (s, w, Done (Ok tt))
    | r => Ret (s, w, r)
    end).

  (** consumer/bulk_scrambler.rs 163-165, 176-178, 191-193, 220-222. *)
  Fixpoint cscr_drain_v (fuel : nat) (C : v_consumer W S T F E) (s : state) (w : W) : outcome (state * W * caught (res unit E)) :=
    match fuel with
    | 0 => NoFuel
    | Datatypes.S fuel =>
        if 0 <? cs_len s then
          let* (s, w, r) := cscr_perform_operation_v C s w in
          match r with
          | Done (Ok tt) => cscr_drain_v fuel C s w
          | r => Ret (s, w, r)
          end
        else Ret (s, w, Done (Ok tt))
    end.

  (** consumer/bulk_scrambler.rs 160-172. *)
  Definition cscr_consume_v (fuel : nat) (C : v_consumer W S T F E) (item : T) (s : state) (w : W) : outcome (state * W * caught (res unit E)) :=
    let* (b, o) := q_enqueue (fixed_queue T) item (cs_buffer s) in
    let s := cs_with_buffer b s in
    match o with
    | None => Ret (s, w, Done (Ok tt))
    | Some item =>
        let* (s, w, r) := cscr_drain_v fuel C s w in
        match r with
        | Done (Ok tt) =>
            let* (b, yay) := q_enqueue (fixed_queue T) item (cs_buffer s) in
            debug_assert dbg (match yay with Some _ => true | None => false end) (
            Ret (cs_with_buffer b s, w, Done (Ok tt)))
        | r => Ret (s, w, r)
        end
    end.

  (** consumer/bulk_scrambler.rs 174-182. *)
  Definition cscr_close_v (fuel : nat) (C : v_consumer W S T F E) (fin : F) (s : state) (w : W) : outcome (state * W * caught (res unit E)) :=
    let* (s, w, r) := cscr_drain_v fuel C s w in
    match r with
    | Done (Ok tt) =>
        let* (i, w, r) := v_close C fin (cs_inner s) w in
        Ret (cs_with_inner i s, w, r)
    | r => Ret (s, w, r)
    end.

  (** consumer/bulk_scrambler.rs 189-197. *)
  Definition cscr_flush_v (fuel : nat) (C : v_consumer W S T F E) (s : state) (w : W) : outcome (state * W * caught (res unit E)) :=
    let* (s, w, r) := cscr_drain_v fuel C s w in
    match r with
    | Done (Ok tt) =>
        let* (i, w, r) := v_flush C (cs_inner s) w in
        Ret (cs_with_inner i s, w, r)
    | r => Ret (s, w, r)
    end.

  (** consumer/bulk_scrambler.rs 204-231. *)
  Definition cscr_expose_v (fuel : nat) (C : v_consumer W S T F E) (s : state) (w : W) : outcome (state * W * caught (res nat E)) :=
    if cs_len s <? fixed_capacity (cs_buffer s) then
      let* (b, o) := q_expose_slots (fixed_queue T) (cs_buffer s) in
      let* slots := expect o in
      Ret (cs_with_buffer b s, w, Done (Ok slots))
    else
      let* (s, w, r) := cscr_drain_v fuel C s w in
      match r with
      | Unwound => Ret (s, w, Unwound)
      | Done (Err e) => Ret (s, w, Done (Err e))
      | Done (Ok tt) =>
          let* (b, o) := q_expose_slots (fixed_queue T) (cs_buffer s) in
          let* slots := expect o in
          Ret (cs_with_buffer b s, w, Done (Ok slots))
      end.

  (** consumer/bulk_scrambler.rs 233-237. *)
  Definition cscr_consume_slots_v (amount : nat) (s : state) (w : W) : outcome (state * W * caught (res unit E)) :=
    let* b := q_consider_enqueued (fixed_queue T) amount (cs_buffer s) in
    Ret (cs_with_buffer b s, w, Done (Ok tt)).

  Definition cscr_consumer_v (fuel : nat) (C : v_consumer W S T F E) : v_consumer W state T F E :=
    mk_v_consumer (cscr_consume_v fuel C) (cscr_close_v fuel C) (cscr_flush_v fuel C) (cscr_expose_v fuel C) (@cscr_write S T) cscr_consume_slots_v.
End ConsumerScrambler.

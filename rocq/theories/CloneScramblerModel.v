(** Model of the BulkScramblers for items with an arbitrary implementation of [Clone], see CloneModel.v: the
    methods that clone items, or call one that does. The wrapped producer may itself run the user's [clone] in its
    [produce], which is therefore given separately, but not in other methods. Paths are relative to ufotofu/src.

    [fill_queue] and [perform_operation] are left, when a [clone] panics, as far as they got; the
    records of ScramblerModel.v are used, since none of the fields changes its meaning. *)
From Coq Require Import Bool List Arith.
From Verif Require Import Prelude QueueModel Traits BasicModel CloneModel ScramblerModel.
Import ListNotations.
Set Implicit Arguments.

Section ProducerScrambler.
  Context {W S T F E : Type} (clone : T -> W -> W * option T) (dbg : bool)
    (produce : S -> W -> outcome (S * W * caught (res (T + F) E))).
  Notation state := (pscr S T F E).

  (** producer/bulk_scrambler.rs 271-313. [enqueue] moves the item, [bulk_enqueue] clones. *)
  Definition pscr_perform_operation_cloning (P : bulk_producer S T F E) (s : state) (w : W)
    : outcome (state * W * caught (res (option F) E)) :=
    debug_assert dbg (ps_len s <? fixed_capacity (ps_buffer s)) (
    let* op := index (ps_index s) (ps_operations s) in
    match op with
    | ScProduce =>
        let* (i, w, r) := produce (ps_inner s) w in
        let s := ps_with_inner i s in
        match r with
        | Unwound => Ret (s, w, Unwound)
        | Done (Err e) => Ret (s, w, Done (Err e))
        | Done (Ok (inr fin)) => Ret (s, w, Done (Ok (Some fin)))
        | Done (Ok (inl item)) =>
            let* (b, yay) := q_enqueue (fixed_queue T) item (ps_buffer s) in
            debug_assert dbg (match yay with None => true | Some _ => false end) (
            let* s := pscr_advance (ps_with_buffer b s) in
            Ret (s, w, Done (Ok None)))
        end
    | ScConsiderProduced n =>
        let* (i, r) := p_expose P (ps_inner s) in
        let s := ps_with_inner i s in
        match r with
        | Err e => Ret (s, w, Done (Err e))
        | Ok (inr fin) => Ret (s, w, Done (Ok (Some fin)))
        | Ok (inl slots) =>
            let* available_slots := slice_to (Nat.min (length slots) n) slots in
            let* (b, w, amount) := q_bulk_enqueue_cloning clone (fixed_queue T) available_slots (ps_buffer s) w in
            let s := ps_with_buffer b s in
            match amount with
            | Unwound => Ret (s, w, Unwound)
            | Done amount =>
                let* (i, r) := p_consider P amount (ps_inner s) in
                let s := ps_with_inner i s in
                match r with
                | Err e => Ret (s, w, Done (Err e))
                | Ok tt =>
                    let* s := pscr_advance s in
                    Ret (s, w, Done (Ok None))
                end
            end
        end
    | ScSlurp =>
        let* (i, r) := p_slurp P (ps_inner s) in
        let s := ps_with_inner i s in
        match r with
        | Err e => Ret (s, w, Done (Err e))
        | Ok tt =>
            let* s := pscr_advance s in
            Ret (s, w, Done (Ok None))
        end
    end).

  (** The loop of [fill_queue], producer/bulk_scrambler.rs 252-260. *)
  Fixpoint pscr_fill_loop_cloning (fuel : nat) (P : bulk_producer S T F E) (s : state) (w : W)
    : outcome (state * W * caught unit) :=
    match fuel with
    | 0 => NoFuel
    | Datatypes.S fuel =>
        match ps_last s with
        | Some _ => Ret (s, w, Done tt)
        | None =>
            if ps_len s <? fixed_capacity (ps_buffer s) then
              let* (s, w, r) := pscr_perform_operation_cloning P s w in
              match r with
              | Unwound => Ret (s, w, Unwound)
              | Done (Ok None) => pscr_fill_loop_cloning fuel P s w
              | Done (Ok (Some fin)) => pscr_fill_loop_cloning fuel P (ps_with_last (Some (Ok fin)) s) w
              | Done (Err err) => pscr_fill_loop_cloning fuel P (ps_with_last (Some (Err err)) s) w
              end
            else Ret (s, w, Done tt)
        end
    end.

  (** [fill_queue], producer/bulk_scrambler.rs 247-269. *)
  Definition pscr_fill_queue_cloning (fuel : nat) (P : bulk_producer S T F E) (s : state) (w : W)
    : outcome (state * W * caught (option (res F E))) :=
    let* (s, w, r) := pscr_fill_loop_cloning fuel P s w in
    match r with
    | Unwound => Ret (s, w, Unwound)
    | Done tt =>
        if ps_len s =? 0 then Ret (ps_with_last None s, w, Done (ps_last s))
        else Ret (s, w, Done None)
    end.

  (** producer/bulk_scrambler.rs 165-177. *)
  Definition pscr_produce_cloning (fuel : nat) (P : bulk_producer S T F E) (s : state) (w : W)
    : outcome (state * W * caught (res (T + F) E)) :=
    let* (s, w, l) := pscr_fill_queue_cloning fuel P s w in
    match l with
    | Unwound => Ret (s, w, Unwound)
    | Done (Some (Ok fin)) => Ret (s, w, Done (Ok (inr fin)))
    | Done (Some (Err e)) => Ret (s, w, Done (Err e))
    | Done None =>
        let* (b, w, o) := fixed_dequeue_cloning clone (ps_buffer s) w in
        let s := ps_with_buffer b s in
        match o with
        | Unwound => Ret (s, w, Unwound)
        | Done o =>
            let* item := expect o in
            Ret (s, w, Done (Ok (inl item)))
        end
    end.

  (** producer/bulk_scrambler.rs 217-234. *)
  Definition pscr_expose_cloning (fuel : nat) (P : bulk_producer S T F E) (s : state) (w : W)
    : outcome (state * W * caught (res (list T + F) E)) :=
    let* (s, w, l) := pscr_fill_queue_cloning fuel P s w in
    match l with
    | Unwound => Ret (s, w, Unwound)
    | Done (Some (Ok fin)) => Ret (s, w, Done (Ok (inr fin)))
    | Done (Some (Err e)) => Ret (s, w, Done (Err e))
    | Done None =>
        let* (b, o) := q_expose_items (fixed_queue T) (ps_buffer s) in
        let* slots := expect o in
        Ret (ps_with_buffer b s, w, Done (Ok (inl slots)))
    end.

  (** [BulkProducer::bulk_produce], lib.rs 469-489, of the scrambler. *)
  Definition pscr_bulk_produce_cloning (fuel : nat) (P : bulk_producer S T F E) (buf : list T) (s : state) (w : W)
    : outcome (state * W * (list T * caught (res (nat + F) E))) :=
    let* (s, w, r) := pscr_expose_cloning fuel P s w in
    match r with
    | Unwound => Ret (s, w, (buf, Unwound))
    | Done (Err e) => Ret (s, w, (buf, Done (Err e)))
    | Done (Ok (inr final_value)) => Ret (s, w, (buf, Done (Ok (inr final_value))))
    | Done (Ok (inl slots)) =>
        let amount := Nat.min (length slots) (length buf) in
        match clone_each clone (firstn amount slots) w with
        | (w, (ys, true)) =>
            let* (s, r) := pscr_consider (E := E) amount s in
            match r with
            | Err e => Ret (s, w, (overlay ys buf, Done (Err e)))
            | Ok tt => Ret (s, w, (overlay ys buf, Done (Ok (inl amount))))
            end
        | (w, (ys, false)) => Ret (s, w, (overlay ys buf, Unwound))
        end
    end.
End ProducerScrambler.

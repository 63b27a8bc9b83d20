(** Model of the asynchronous methods of the adaptors, the scramblers and the codecs, poll by poll.
    Simplifications as in AsyncModel, and as in AdaptorModel, ScramblerModel and CodecModel for what is not asynchronous. *)
From Coq Require Import Bool List Arith.
From Coq.Init Require Import Byte.
From Verif Require Import Prelude QueueModel Traits BasicModel AdaptorModel ScramblerModel CodecModel EndianModel SliceModel AsyncModel.
Import ListNotations.
Set Implicit Arguments.

(** ** Limit *)
Section Limit.
  Context {S T F E : Type}.

  Definition a_lim {X} (f : fut S X) : fut (limit S) X := within (@lim_inner S) (fun i s => mk_limit i (lim_remaining s)) f.

  (** producer/limit.rs 54-65. The limit is lowered before the inner producer is asked. *)
  Definition a_limit_produce (P : a_producer S T F E) : fut (limit S) (res (T + option F) E) :=
    let! s := get in
    match lim_remaining s with
    | 0 => ret (Ok (inr None))
    | Datatypes.S decremented =>
        let! _ := put (mk_limit (lim_inner s) decremented) in
        let! r := a_lim (ap_produce P) in
        match r with
        | Err e => ret (Err e)
        | Ok (inl item) => ret (Ok (inl item))
        | Ok (inr fin) => ret (Ok (inr (Some fin)))
        end
    end.

  (** producer/limit.rs 69-71. *)
  Definition a_limit_slurp (P : a_buffered_producer S T F E) : fut (limit S) (res unit E) := a_lim (ap_slurp P).

  (** producer/limit.rs 75-89. *)
  Definition a_limit_expose (P : a_bulk_producer S T F E) : fut (limit S) (res (list T + option F) E) :=
    let! s := get in
    if lim_remaining s =? 0 then ret (Ok (inr None))
    else
      let! r := a_lim (ap_expose P) in
      match r with
      | Err e => ret (Err e)
      | Ok (inl items) =>
          let! s := get in
          let! items := attempt (slice_to (Nat.min (lim_remaining s) (length items)) items) in
          ret (Ok (inl items))
      | Ok (inr fin) => ret (Ok (inr (Some fin)))
      end.

  (** producer/limit.rs 91-94. *)
  Definition a_limit_consider (P : a_bulk_producer S T F E) (amount : nat) : fut (limit S) (res unit E) :=
    let! _ := sync (fun s : limit S => let* remaining := csub (lim_remaining s) amount in Ret (mk_limit (lim_inner s) remaining, tt)) in
    a_lim (ap_consider P amount).

  Definition a_limit_producer (P : a_bulk_producer S T F E) : a_bulk_producer (limit S) T (option F) E :=
    a_bulk_producer_of (a_limit_produce P) (a_limit_slurp P) (a_limit_expose P) (a_limit_consider P).

  (** consumer/limit.rs 44-52. *)
  Definition a_limit_consume (C : a_consumer S T F E) (item : T) : fut (limit S) (res unit (option E)) :=
    let! s := get in
    match lim_remaining s with
    | 0 => ret (Err None)
    | Datatypes.S decremented =>
        let! _ := put (mk_limit (lim_inner s) decremented) in
        let! r := a_lim (ac_consume C item) in
        ret (map_err Some r)
    end.

  (** consumer/limit.rs 54-56. *)
  Definition a_limit_close (C : a_consumer S T F E) (fin : F) : fut (limit S) (res unit (option E)) :=
    let! r := a_lim (ac_close C fin) in ret (map_err Some r).

  (** consumer/limit.rs 60-62. *)
  Definition a_limit_flush (C : a_buffered_consumer S T F E) : fut (limit S) (res unit (option E)) :=
    let! r := a_lim (ac_flush C) in ret (map_err Some r).

  (** consumer/limit.rs 66-77. *)
  Definition a_limit_expose_slots (C : a_bulk_consumer S T F E) : fut (limit S) (res nat (option E)) :=
    let! s := get in
    if lim_remaining s =? 0 then ret (Err None)
    else
      let! r := a_lim (ac_expose C) in
      match r with
      | Err e => ret (Err (Some e))
      | Ok len => let! s := get in ret (Ok (Nat.min (lim_remaining s) len))
      end.

  (** consumer/limit.rs 79-82. *)
  Definition a_limit_consume_slots (C : a_bulk_consumer S T F E) (amount : nat) : fut (limit S) (res unit (option E)) :=
    let! _ := sync (fun s : limit S => let* remaining := csub (lim_remaining s) amount in Ret (mk_limit (lim_inner s) remaining, tt)) in
    let! r := a_lim (ac_consume_slots C amount) in
    ret (map_err Some r).

  Definition a_limit_consumer (C : a_bulk_consumer S T F E) : a_bulk_consumer (limit S) T F (option E) :=
    a_bulk_consumer_of (a_limit_consume C) (a_limit_close C) (a_limit_flush C) (a_limit_expose_slots C)
      (fun ys s => mk_limit (ac_write C ys (lim_inner s)) (lim_remaining s)) (a_limit_consume_slots C).
End Limit.

(** ** MapItem *)
Section MapItem.
  Context {S T U W F E : Type}.

  Definition a_mi {X} (f : fut S X) : fut (map_item S W) X := within (@mi_inner S W) (fun i s => mk_map_item i (mi_closure s)) f.

  (** producer/map_item.rs 37-42. *)
  Definition a_map_item_produce (P : a_producer S T F E) (f : W -> T -> W * U) : fut (map_item S W) (res (U + F) E) :=
    let! r := a_mi (ap_produce P) in
    match r with
    | Err e => ret (Err e)
    | Ok (inl item) =>
        let! s := get in
        let (w, y) := f (mi_closure s) item in
        let! _ := put (mk_map_item (mi_inner s) w) in
        ret (Ok (inl y))
    | Ok (inr fin) => ret (Ok (inr fin))
    end.

  (** producer/map_item.rs 46-48. *)
  Definition a_map_item_producer (P : a_buffered_producer S T F E) (f : W -> T -> W * U) : a_buffered_producer (map_item S W) U F E :=
    mk_a_buffered_producer (mk_a_producer (a_map_item_produce P f)) (a_mi (ap_slurp P)).

  (** consumer/map_item.rs 46-48. *)
  Definition a_map_item_consume (C : a_consumer S T F E) (f : W -> U -> W * T) (item : U) : fut (map_item S W) (res unit E) :=
    let! s := get in
    let (w, y) := f (mi_closure s) item in
    let! _ := put (mk_map_item (mi_inner s) w) in
    a_mi (ac_consume C y).

  (** consumer/map_item.rs 50-52, 60-62. *)
  Definition a_map_item_consumer (C : a_buffered_consumer S T F E) (f : W -> U -> W * T) : a_buffered_consumer (map_item S W) U F E :=
    mk_a_buffered_consumer (mk_a_consumer (a_map_item_consume C f) (fun fin => a_mi (ac_close C fin))) (a_mi (ac_flush C)).
End MapItem.

(** ** MapFinal *)
Section WithFun.
  Context {S G : Type}.
  Definition a_wf {X} (f : fut S X) : fut (with_fun S G) X := within (@wf_inner S G) (fun i s => mk_with_fun i (wf_fun s)) f.

  (** [self.fun.take().expect(..)] *)
  Definition a_take_fun : fut (with_fun S G) G :=
    sync (fun s : with_fun S G => let* g := expect (wf_fun s) in Ret (mk_with_fun (wf_inner s) None, g)).
End WithFun.

Section MapFinalProducer.
  Context {S T F B E : Type}.
  Notation state := (with_fun S (F -> B)).

  (** producer/map_final.rs 40-49 and 59-73. *)
  Definition a_map_final_call {X} (call : fut S (res (X + F) E)) : fut state (res (X + B) E) :=
    let! r := a_wf call in
    match r with
    | Err e => ret (Err e)
    | Ok (inl x) => ret (Ok (inl x))
    | Ok (inr fin) => let! g := a_take_fun in ret (Ok (inr (g fin)))
    end.

  (** producer/map_final.rs 53-55, 75-77. *)
  Definition a_map_final_producer (P : a_bulk_producer S T F E) : a_bulk_producer state T B E :=
    a_bulk_producer_of (a_map_final_call (ap_produce P)) (a_wf (ap_slurp P)) (a_map_final_call (ap_expose P))
      (fun amount => a_wf (ap_consider P amount)).
End MapFinalProducer.

Section MapFinalConsumer.
  Context {S T F B E : Type}.
  Notation state := (with_fun S (B -> F)).

  (** consumer/map_final.rs 46-55. *)
  Definition a_map_final_close (C : a_consumer S T F E) (fin : B) : fut state (res unit E) :=
    let! g := a_take_fun in a_wf (ac_close C (g fin)).

  (** consumer/map_final.rs 42-44, 59-61, 65-74. *)
  Definition a_map_final_consumer (C : a_bulk_consumer S T F E) : a_bulk_consumer state T B E :=
    a_bulk_consumer_of (fun item => a_wf (ac_consume C item)) (a_map_final_close C) (a_wf (ac_flush C)) (a_wf (ac_expose C))
      (fun ys s => mk_with_fun (ac_write C ys (wf_inner s)) (wf_fun s)) (fun amount => a_wf (ac_consume_slots C amount)).
End MapFinalConsumer.

(** ** MapError *)
Section MapError.
  Context {S T F E B : Type}.
  Notation state := (with_fun S (E -> B)).

  (** [self.inner.method().await.map_err(self.fun.take().expect(..))] *)
  Definition a_map_error_call {X} (call : fut S (res X E)) : fut state (res X B) :=
    let! r := a_wf call in
    let! g := a_take_fun in
    ret (map_err g r).

  (** producer/map_error.rs 40-46, 50-56, 60-71, 73-79. *)
  Definition a_map_error_producer (P : a_bulk_producer S T F E) : a_bulk_producer state T F B :=
    a_bulk_producer_of (a_map_error_call (ap_produce P)) (a_map_error_call (ap_slurp P)) (a_map_error_call (ap_expose P))
      (fun amount => a_map_error_call (ap_consider P amount)).

  (** consumer/map_error.rs 38-44, 46-52, 56-62, 66-75, 77-83. *)
  Definition a_map_error_consumer (C : a_bulk_consumer S T F E) : a_bulk_consumer state T F B :=
    a_bulk_consumer_of (fun item => a_map_error_call (ac_consume C item)) (fun fin => a_map_error_call (ac_close C fin))
      (a_map_error_call (ac_flush C)) (a_map_error_call (ac_expose C))
      (fun ys s => mk_with_fun (ac_write C ys (wf_inner s)) (wf_fun s)) (fun amount => a_map_error_call (ac_consume_slots C amount)).
End MapError.

(** ** Invariant *)
Section Invariant.
  Context {S T F E : Type}.
  Notation state := (invariant S).

  Definition a_inv {X} (f : fut S X) : fut state X := within (@inv_inner S) (fun i s => mk_invariant i (inv_active s) (inv_exposed s)) f.

  (** producer/invariant.rs 63-67, consumer/invariant.rs 59-63. *)
  Definition a_check_inactive : fut state unit := sync (fun s : state => if inv_active s then Ret (s, tt) else Panic).

  (** [self.active = false] *)
  Definition a_deactivate : fut state unit := sync (fun s : state => Ret (mk_invariant (inv_inner s) false (inv_exposed s), tt)).

  (** [if amount > self.exposed_slots { panic!(..) } else { self.exposed_slots -= amount; }] *)
  Definition a_count_exposed (amount : nat) : fut state unit :=
    sync (fun s : state =>
      if inv_exposed s <? amount then Panic
      else let* exposed := csub (inv_exposed s) amount in Ret (mk_invariant (inv_inner s) (inv_active s) exposed, tt)).

  (** producer/invariant.rs 87-102. *)
  Definition a_invariant_produce (P : a_producer S T F E) : fut state (res (T + F) E) :=
    let! _ := a_check_inactive in
    let! r := a_inv (ap_produce P) in
    match r with
    | Ok (inl _) => ret r
    | _ => let! _ := a_deactivate in ret r
    end.

  (** producer/invariant.rs 106-112, consumer/invariant.rs 86-94, 108-114. *)
  Definition a_invariant_unit (call : fut S (res unit E)) : fut state (res unit E) :=
    let! _ := a_check_inactive in
    let! r := a_inv call in
    match r with
    | Ok _ => ret r
    | Err _ => let! _ := a_deactivate in ret r
    end.

  (** producer/invariant.rs 116-134. *)
  Definition a_invariant_expose (P : a_bulk_producer S T F E) : fut state (res (list T + F) E) :=
    let! _ := a_check_inactive in
    let! r := a_inv (ap_expose P) in
    match r with
    | Ok (inl slots) =>
        let! _ := sync (fun s : state => Ret (mk_invariant (inv_inner s) (inv_active s) (length slots), tt)) in
        ret r
    | _ => let! _ := a_deactivate in ret r
    end.

  (** producer/invariant.rs 136-147. *)
  Definition a_invariant_consider (P : a_bulk_producer S T F E) (amount : nat) : fut state (res unit E) :=
    let! _ := a_check_inactive in
    let! _ := a_count_exposed amount in
    a_inv (ap_consider P amount).

  Definition a_invariant_producer (P : a_bulk_producer S T F E) : a_bulk_producer state T F E :=
    a_bulk_producer_of (a_invariant_produce P) (a_invariant_unit (ap_slurp P)) (a_invariant_expose P) (a_invariant_consider P).

  (** consumer/invariant.rs 96-101: the consumer is marked as inactive before the inner one is closed. *)
  Definition a_invariant_close (C : a_consumer S T F E) (fin : F) : fut state (res unit E) :=
    let! _ := a_check_inactive in
    let! _ := a_deactivate in
    a_inv (ac_close C fin).

  (** consumer/invariant.rs 121-136. *)
  Definition a_invariant_expose_slots (C : a_bulk_consumer S T F E) : fut state (res nat E) :=
    let! _ := a_check_inactive in
    let! r := a_inv (ac_expose C) in
    match r with
    | Ok slots =>
        let! _ := sync (fun s : state => Ret (mk_invariant (inv_inner s) (inv_active s) slots, tt)) in
        ret r
    | Err _ => let! _ := a_deactivate in ret r
    end.

  (** consumer/invariant.rs 138-151. *)
  Definition a_invariant_consume_slots (C : a_bulk_consumer S T F E) (amount : nat) : fut state (res unit E) :=
    let! _ := a_check_inactive in
    let! _ := a_count_exposed amount in
    a_inv (ac_consume_slots C amount).

  Definition a_invariant_consumer (C : a_bulk_consumer S T F E) : a_bulk_consumer state T F E :=
    a_bulk_consumer_of (fun item => a_invariant_unit (ac_consume C item)) (a_invariant_close C) (a_invariant_unit (ac_flush C))
      (a_invariant_expose_slots C) (fun ys s => mk_invariant (ac_write C ys (inv_inner s)) (inv_active s) (inv_exposed s))
      (a_invariant_consume_slots C).
End Invariant.

(** ** The scrambler for producers *)
Section ProducerScrambler.
  Context {S T F E : Type} (dbg : bool).
  Notation state := (pscr S T F E).

  Definition a_ps {X} (f : fut S X) : fut state X := within (fun s : state => ps_inner s) (fun i s => ps_with_inner i s) f.
  Definition a_ps_advance : fut state unit := sync (fun s : state => let* s := pscr_advance s in Ret (s, tt)).
  Definition a_ps_set_last (l : option (res F E)) : fut state unit := sync (fun s : state => Ret (ps_with_last l s, tt)).

  (** producer/bulk_scrambler.rs 271-313. *)
  Definition a_pscr_perform_operation (P : a_bulk_producer S T F E) : fut state (res (option F) E) :=
    let! s := get in
    let! _ := attempt (debug_assert dbg (ps_len s <? fixed_capacity (ps_buffer s)) (Ret tt)) in
    let! op := attempt (index (ps_index s) (ps_operations s)) in
    match op with
    | ScProduce =>
        let! r := a_ps (ap_produce P) in
        match r with
        | Err e => ret (Err e)
        | Ok (inr fin) => ret (Ok (Some fin))
        | Ok (inl item) =>
            let! yay := sync (fun s : state => let* (b, yay) := q_enqueue (fixed_queue T) item (ps_buffer s) in Ret (ps_with_buffer b s, yay)) in
            let! _ := attempt (debug_assert dbg (match yay with None => true | Some _ => false end) (Ret tt)) in
            let! _ := a_ps_advance in
            ret (Ok None)
        end
    | ScConsiderProduced n =>
        let! r := a_ps (ap_expose P) in
        match r with
        | Err e => ret (Err e)
        | Ok (inr fin) => ret (Ok (Some fin))
        | Ok (inl slots) =>
            let! available_slots := attempt (slice_to (Nat.min (length slots) n) slots) in
            let! amount := sync (fun s : state =>
              let* (b, amount) := q_bulk_enqueue (fixed_queue T) available_slots (ps_buffer s) in Ret (ps_with_buffer b s, amount)) in
            let! r := a_ps (ap_consider P amount) in
            match r with
            | Err e => ret (Err e)
            | Ok tt => let! _ := a_ps_advance in ret (Ok None)
            end
        end
    | ScSlurp =>
        let! r := a_ps (ap_slurp P) in
        match r with
        | Err e => ret (Err e)
        | Ok tt => let! _ := a_ps_advance in ret (Ok None)
        end
    end.

  (** The loop of [fill_queue], producer/bulk_scrambler.rs 252-260. *)
  Fixpoint a_pscr_fill_loop (fuel : nat) (P : a_bulk_producer S T F E) : fut state unit :=
    match fuel with
    | 0 => out_of_fuel
    | Datatypes.S fuel =>
        let! s := get in
        match ps_last s with
        | Some _ => ret tt
        | None =>
            if ps_len s <? fixed_capacity (ps_buffer s) then
              let! r := a_pscr_perform_operation P in
              match r with
              | Ok None => a_pscr_fill_loop fuel P
              | Ok (Some fin) => let! _ := a_ps_set_last (Some (Ok fin)) in a_pscr_fill_loop fuel P
              | Err err => let! _ := a_ps_set_last (Some (Err err)) in a_pscr_fill_loop fuel P
              end
            else ret tt
        end
    end.

  (** [fill_queue], producer/bulk_scrambler.rs 247-269. *)
  Definition a_pscr_fill_queue (fuel : nat) (P : a_bulk_producer S T F E) : fut state (option (res F E)) :=
    let! _ := a_pscr_fill_loop fuel P in
    let! s := get in
    if ps_len s =? 0 then let! _ := a_ps_set_last None in ret (ps_last s)
    else ret None.

  (** producer/bulk_scrambler.rs 165-177. *)
  Definition a_pscr_produce (fuel : nat) (P : a_bulk_producer S T F E) : fut state (res (T + F) E) :=
    let! l := a_pscr_fill_queue fuel P in
    match l with
    | Some (Ok fin) => ret (Ok (inr fin))
    | Some (Err e) => ret (Err e)
    | None =>
        let! o := sync (fun s : state => let* (b, o) := q_dequeue (fixed_queue T) (ps_buffer s) in Ret (ps_with_buffer b s, o)) in
        let! item := attempt (expect o) in
        ret (Ok (inl item))
    end.

  (** producer/bulk_scrambler.rs 184-210. *)
  Definition a_pscr_slurp (fuel : nat) (P : a_bulk_producer S T F E) : fut state (res unit E) :=
    let! l := a_pscr_fill_queue fuel P in
    let slurp_inner :=
      let! r := a_ps (ap_slurp P) in
      match r with
      | Err err =>
          let! s := get in
          if ps_len s =? 0 then ret (Err err)
          else let! _ := a_ps_set_last (Some (Err err)) in ret (Ok tt)
      | Ok tt => ret (Ok tt)
      end in
    match l with
    | Some (Err err) => ret (Err err)
    | Some (Ok fin) => let! _ := a_ps_set_last (Some (Ok fin)) in slurp_inner
    | None => slurp_inner
    end.

  (** producer/bulk_scrambler.rs 217-234. *)
  Definition a_pscr_expose (fuel : nat) (P : a_bulk_producer S T F E) : fut state (res (list T + F) E) :=
    let! l := a_pscr_fill_queue fuel P in
    match l with
    | Some (Ok fin) => ret (Ok (inr fin))
    | Some (Err e) => ret (Err e)
    | None =>
        let! o := sync (fun s : state => let* (b, o) := q_expose_items (fixed_queue T) (ps_buffer s) in Ret (ps_with_buffer b s, o)) in
        let! slots := attempt (expect o) in
        ret (Ok (inl slots))
    end.

  (** producer/bulk_scrambler.rs 236-240. *)
  Definition a_pscr_producer (fuel : nat) (P : a_bulk_producer S T F E) : a_bulk_producer state T F E :=
    a_bulk_producer_of (a_pscr_produce fuel P) (a_pscr_slurp fuel P) (a_pscr_expose fuel P) (fun n => sync (fun s : state => pscr_consider n s)).
End ProducerScrambler.

(** ** The scrambler for consumers *)
Section ConsumerScrambler.
  Context {S T F E : Type} (dbg : bool) (default : T).
  Notation state := (cscr S T).

  Definition a_cs {X} (f : fut S X) : fut state X := within (@cs_inner S T) (fun i s => cs_with_inner i s) f.

  (** consumer/bulk_scrambler.rs 244-287. *)
  Definition a_cscr_perform_operation (C : a_bulk_consumer S T F E) : fut state (res unit E) :=
    let! s := get in
    let! _ := attempt (debug_assert dbg (0 <? cs_len s) (Ret tt)) in
    let! op := attempt (index (cs_index s) (cs_operations s)) in
    let! r :=
      match op with
      | ScConsume =>
          let! o := sync (fun s : state => let* (b, o) := q_dequeue (fixed_queue T) (cs_buffer s) in Ret (cs_with_buffer b s, o)) in
          let! item := attempt (expect o) in
          a_cs (ac_consume C item)
      | ScConsumeSlots n =>
          let! r := a_cs (ac_expose C) in
          match r with
          | Err e => ret (Err e)
          | Ok slots_len =>
              let! amount := sync (fun s : state =>
                let* (b, (slots, amount)) := q_bulk_dequeue (fixed_queue T) (repeat default (Nat.min slots_len n)) (cs_buffer s) in
                Ret (cs_with_inner (ac_write C (firstn amount slots) (cs_inner s)) (cs_with_buffer b s), amount)) in
              a_cs (ac_consume_slots C amount)
          end
      | ScFlush => a_cs (ac_flush C)
      end in
    match r with
    | Err e => ret (Err e)
    | Ok tt =>
        let! _ := sync (fun s : state => let* s := cscr_advance s in Ret (s, tt)) in
        ret (Ok tt)
    end.

  (** consumer/bulk_scrambler.rs 163-165, 176-178, 191-193, 220-222. *)
  Fixpoint a_cscr_drain (fuel : nat) (C : a_bulk_consumer S T F E) : fut state (res unit E) :=
    match fuel with
    | 0 => out_of_fuel
    | Datatypes.S fuel =>
        let! s := get in
        if 0 <? cs_len s then
          let! r := a_cscr_perform_operation C in
          match r with
          | Err e => ret (Err e)
          | Ok tt => a_cscr_drain fuel C
          end
        else ret (Ok tt)
    end.

  Definition a_cs_enqueue (item : T) : fut state (option T) :=
    sync (fun s : state => let* (b, o) := q_enqueue (fixed_queue T) item (cs_buffer s) in Ret (cs_with_buffer b s, o)).
  Definition a_cs_expose_slots : fut state nat :=
    sync (fun s : state => let* (b, o) := q_expose_slots (fixed_queue T) (cs_buffer s) in
                           let* slots := expect o in Ret (cs_with_buffer b s, slots)).

  (** consumer/bulk_scrambler.rs 160-172. *)
  Definition a_cscr_consume (fuel : nat) (C : a_bulk_consumer S T F E) (item : T) : fut state (res unit E) :=
    let! o := a_cs_enqueue item in
    match o with
    | None => ret (Ok tt)
    | Some item =>
        let! r := a_cscr_drain fuel C in
        match r with
        | Err e => ret (Err e)
        | Ok tt =>
            let! yay := a_cs_enqueue item in
            let! _ := attempt (debug_assert dbg (match yay with Some _ => true | None => false end) (Ret tt)) in
            ret (Ok tt)
        end
    end.

  (** consumer/bulk_scrambler.rs 174-182. *)
  Definition a_cscr_close (fuel : nat) (C : a_bulk_consumer S T F E) (fin : F) : fut state (res unit E) :=
    let! r := a_cscr_drain fuel C in
    match r with
    | Err e => ret (Err e)
    | Ok tt => a_cs (ac_close C fin)
    end.

  (** consumer/bulk_scrambler.rs 189-197. *)
  Definition a_cscr_flush (fuel : nat) (C : a_bulk_consumer S T F E) : fut state (res unit E) :=
    let! r := a_cscr_drain fuel C in
    match r with
    | Err e => ret (Err e)
    | Ok tt => a_cs (ac_flush C)
    end.

  (** consumer/bulk_scrambler.rs 204-231. *)
  Definition a_cscr_expose (fuel : nat) (C : a_bulk_consumer S T F E) : fut state (res nat E) :=
    let! s := get in
    if cs_len s <? fixed_capacity (cs_buffer s) then
      let! slots := a_cs_expose_slots in ret (Ok slots)
    else
      let! r := a_cscr_drain fuel C in
      match r with
      | Err e => ret (Err e)
      | Ok tt => let! slots := a_cs_expose_slots in ret (Ok slots)
      end.

  (** consumer/bulk_scrambler.rs 233-237. *)
  Definition a_cscr_consumer (fuel : nat) (C : a_bulk_consumer S T F E) : a_bulk_consumer state T F E :=
    a_bulk_consumer_of (a_cscr_consume fuel C) (a_cscr_close fuel C) (a_cscr_flush fuel C) (a_cscr_expose fuel C)
      (@cscr_write S T) (fun n => sync (fun s : state => cscr_consume_slots n s)).
End ConsumerScrambler.

(** ** IntoSlice, consumer/into_slice.rs 88-125 *)
Definition a_into_slice {T} : a_bulk_consumer (into_slice T) T unit unit :=
  a_bulk_consumer_of (fun x => sync (into_slice_consume x)) (fun f => sync (into_slice_close f)) (sync (into_slice_flush (T := T)))
    (sync (into_slice_expose (T := T))) into_slice_write (fun n => sync (into_slice_consume_slots n)).

(** ** Codecs *)

(** encode.rs 25-27, relative_encode.rs 20-26. *)
Definition a_encode_fn (V : Type) : Type :=
  forall S F E : Type, a_bulk_consumer S byte F E -> V -> fut S (res unit E).

(** decode.rs 25-30, 58-63, relative_decode.rs 16-22, 56-62. *)
Definition a_decode_fn (V O : Type) : Type :=
  forall S F E : Type, a_bulk_producer S byte F E -> fut S (res V (decode_error F E O)).

(** ufotofu_codec_endian/src/lib.rs 57-69, 145-157. *)
Definition a_endian_encode (w : wrapper) : a_encode_fn (num (wrapped w)) :=
  fun S F E consumer v =>
    let bytes := to_bytes w v in
    let! r := a_bulk_consume_full_slice (Datatypes.S (length bytes)) consumer bytes in
    ret (map_err (@cale_reason E) r).

(** ufotofu_codec_endian/src/lib.rs 83-92, 171-182. *)
Definition a_endian_decode (w : wrapper) : a_decode_fn (num (wrapped w)) infallible :=
  fun S F E producer =>
    let bytes := repeat x00 (BITS (wrapped w) / 8) in
    let! (bytes, r) := a_bulk_overwrite_full_slice (Datatypes.S (length bytes)) producer bytes in
    match r with
    | Err err => ret (Err (decode_error_from_at_least err))
    | Ok tt => ret (Ok (from_bytes w bytes))
    end.

Section Codecs.
  Context {S F E V O : Type}.

  (** adaptors/encoder.rs 28-56. *)
  Definition a_encoder (encode : a_encode_fn V) (C : a_bulk_consumer S byte F E) : a_buffered_consumer S V F E :=
    mk_a_buffered_consumer (mk_a_consumer (fun item => encode _ _ _ C item) (fun fin => ac_close C fin)) (ac_flush C).

  (** adaptors/decoder.rs 43-49, 96-102. *)
  Definition a_decoder_produce (decode : a_decode_fn V O) (P : a_bulk_producer S byte F E) : fut S (res (V + F) (decode_error F E O)) :=
    let! r := ap_expose P in
    match r with
    | Err e => ret (Err (decode_error_from e))
    | Ok (inr fin) => ret (Ok (inr fin))
    | Ok (inl _) =>
        let! r := decode _ _ _ P in
        match r with
        | Err e => ret (Err e)
        | Ok t => ret (Ok (inl t))
        end
    end.

  (** adaptors/decoder.rs 57-59, 110-112. *)
  Definition a_decoder_slurp (P : a_bulk_producer S byte F E) : fut S (res unit (decode_error F E O)) :=
    let! r := ap_slurp P in ret (map_err decode_error_from r).

  Definition a_decoder (decode : a_decode_fn V O) (P : a_bulk_producer S byte F E) : a_buffered_producer S V F (decode_error F E O) :=
    mk_a_buffered_producer (mk_a_producer (a_decoder_produce decode P)) (a_decoder_slurp P).
End Codecs.

Section RelativeCodecs.
  Context {S F E V O RT : Type}.

  Definition a_rel {X} (f : fut S X) : fut (relative S RT) X := within (@rel_inner S RT) (fun i s => mk_relative i (relative_to s)) f.

  (** adaptors/relative_encoder.rs 35-66. *)
  Definition a_relative_encoder (relative_encode : RT -> a_encode_fn V) (C : a_bulk_consumer S byte F E)
    : a_buffered_consumer (relative S RT) V F E :=
    mk_a_buffered_consumer
      (mk_a_consumer (fun item => let! s := get in a_rel (relative_encode (relative_to s) _ _ _ C item)) (fun fin => a_rel (ac_close C fin)))
      (a_rel (ac_flush C)).

  (** adaptors/relative_decoder.rs 39-73, 107-143. *)
  Definition a_relative_decoder (relative_decode : RT -> a_decode_fn V O) (P : a_bulk_producer S byte F E)
    : a_buffered_producer (relative S RT) V F (decode_error F E O) :=
    mk_a_buffered_producer
      (mk_a_producer (let! s := get in a_rel (a_decoder_produce (relative_decode (relative_to s)) P)))
      (a_rel (a_decoder_slurp P)).
End RelativeCodecs.

(** Model of the adaptors and of the pipes around producers and consumers any of whose methods may panic.

    A method that panics unwinds through the adaptor or the pipe that called it. The caller may catch the panic
    and use the objects again, so the state they are left in is part of the answer. Nothing is assumed about the methods: [s] is
    the state of the object, [w] whatever else they read and change. The functions given to MapItem, MapFinal and MapError neither panic nor have
    effects here (for those that do see ClosureModel.v). Paths are relative to ufotofu/src. *)
From Coq Require Import Bool List Arith.
From Verif Require Import Prelude Traits BasicModel AdaptorModel CloneModel CloneSourceModel.
Import ListNotations.
Set Implicit Arguments.

Record v_producer (W S T F E : Type) : Type := mk_v_producer {
  v_produce : S -> W -> outcome (S * W * caught (res (T + F) E));
  v_slurp : S -> W -> outcome (S * W * caught (res unit E));
  v_expose : S -> W -> outcome (S * W * caught (res (list T + F) E));
  v_consider : nat -> S -> W -> outcome (S * W * caught (res unit E))
}.

(** [v_write]: the caller writes into the slots it was given. No method runs. *)
Record v_consumer (W S T F E : Type) : Type := mk_v_consumer {
  v_consume : T -> S -> W -> outcome (S * W * caught (res unit E));
  v_close : F -> S -> W -> outcome (S * W * caught (res unit E));
  v_flush : S -> W -> outcome (S * W * caught (res unit E));
  v_expose_slots : S -> W -> outcome (S * W * caught (res nat E));
  v_write : list T -> S -> S;
  v_consume_slots : nat -> S -> W -> outcome (S * W * caught (res unit E))
}.

Definition map_caught {A B} (f : A -> B) (r : caught A) : caught B := match r with Done x => Done (f x) | Unwound => Unwound end.

(** Code that runs [call] on the object inside and then changes only how the state is wrapped and what is answered. *)
Definition forward {W S S' X Y} (wrap : S -> S') (answer : X -> Y) (call : outcome (S * W * caught X)) : outcome (S' * W * caught Y) :=
  let* (i, w, r) := call in Ret (wrap i, w, map_caught answer r).

Section Limit.
  Context {W S T F E : Type}.

  (** producer/limit.rs 69-71. *)
  Definition limit_slurp_v (P : v_producer W S T F E) (s : limit S) (w : W) : outcome (limit S * W * caught (res unit E)) :=
    forward (fun i => mk_limit i (lim_remaining s)) (fun r => r) (v_slurp P (lim_inner s) w).

  (** producer/limit.rs 75-89. *)
  Definition limit_expose_v (P : v_producer W S T F E) (s : limit S) (w : W) : outcome (limit S * W * caught (res (list T + option F) E)) :=
    if lim_remaining s =? 0 then Ret (s, w, Done (Ok (inr None)))
    else
      let* (i, w, r) := v_expose P (lim_inner s) w in
      let s := mk_limit i (lim_remaining s) in
      match r with
      | Unwound => Ret (s, w, Unwound)
      | Done (Err e) => Ret (s, w, Done (Err e))
      | Done (Ok (inl items)) =>
          let* items := slice_to (Nat.min (lim_remaining s) (length items)) items in
          Ret (s, w, Done (Ok (inl items)))
      | Done (Ok (inr fin)) => Ret (s, w, Done (Ok (inr (Some fin))))
      end.

  (** producer/limit.rs 91-94: [remaining] goes down before the inner call. *)
  Definition limit_consider_v (P : v_producer W S T F E) (amount : nat) (s : limit S) (w : W) : outcome (limit S * W * caught (res unit E)) :=
    let* remaining := csub (lim_remaining s) amount in
    forward (fun i => mk_limit i remaining) (fun r => r) (v_consider P amount (lim_inner s) w).

  (** [produce] is in CloneSourceModel.v. *)
  Definition limit_producer_v (P : v_producer W S T F E) : v_producer W (limit S) T (option F) E :=
    mk_v_producer (limit_produce_cloning (v_produce P)) (limit_slurp_v P) (limit_expose_v P) (limit_consider_v P).

  (** consumer/limit.rs 44-52. *)
  Definition limit_consume_v (C : v_consumer W S T F E) (item : T) (s : limit S) (w : W) : outcome (limit S * W * caught (res unit (option E))) :=
    match lim_remaining s with
    | 0 => Ret (s, w, Done (Err None))
    | Datatypes.S decremented => forward (fun i => mk_limit i decremented) (map_err Some) (v_consume C item (lim_inner s) w)
    end.

  (** consumer/limit.rs 54-56. *)
  Definition limit_close_v (C : v_consumer W S T F E) (fin : F) (s : limit S) (w : W) : outcome (limit S * W * caught (res unit (option E))) :=
    forward (fun i => mk_limit i (lim_remaining s)) (map_err Some) (v_close C fin (lim_inner s) w).

  (** consumer/limit.rs 60-62. *)
  Definition limit_flush_v (C : v_consumer W S T F E) (s : limit S) (w : W) : outcome (limit S * W * caught (res unit (option E))) :=
    forward (fun i => mk_limit i (lim_remaining s)) (map_err Some) (v_flush C (lim_inner s) w).

  (** consumer/limit.rs 66-77. *)
  Definition limit_expose_slots_v (C : v_consumer W S T F E) (s : limit S) (w : W) : outcome (limit S * W * caught (res nat (option E))) :=
    if lim_remaining s =? 0 then Ret (s, w, Done (Err None))
    else
      let* (i, w, r) := v_expose_slots C (lim_inner s) w in
      let s := mk_limit i (lim_remaining s) in
      match r with
      | Unwound => Ret (s, w, Unwound)
      | Done (Err e) => Ret (s, w, Done (Err (Some e)))
      | Done (Ok len) => Ret (s, w, Done (Ok (Nat.min (lim_remaining s) len)))
      end.

  (** consumer/limit.rs 79-82. *)
  Definition limit_consume_slots_v (C : v_consumer W S T F E) (amount : nat) (s : limit S) (w : W)
    : outcome (limit S * W * caught (res unit (option E))) :=
    let* remaining := csub (lim_remaining s) amount in
    forward (fun i => mk_limit i remaining) (map_err Some) (v_consume_slots C amount (lim_inner s) w).

  Definition limit_consumer_v (C : v_consumer W S T F E) : v_consumer W (limit S) T F (option E) :=
    mk_v_consumer (limit_consume_v C) (limit_close_v C) (limit_flush_v C) (limit_expose_slots_v C)
      (fun ys s => mk_limit (v_write C ys (lim_inner s)) (lim_remaining s)) (limit_consume_slots_v C).
End Limit.

Section MapFinal.
  Context {W S T F B E : Type}.

  (** producer/map_final.rs 40-49 (in CloneSourceModel.v), 53-55, 59-73 and 75-77. *)
  Definition map_final_expose_v (P : v_producer W S T F E) (s : with_fun S (F -> B)) (w : W)
    : outcome (with_fun S (F -> B) * W * caught (res (list T + B) E)) :=
    let* (i, w, r) := v_expose P (wf_inner s) w in
    let s := mk_with_fun i (wf_fun s) in
    match r with
    | Unwound => Ret (s, w, Unwound)
    | Done r => let* (s, r) := map_final_result s r in Ret (s, w, Done r)
    end.
  Definition map_final_producer_v (P : v_producer W S T F E) : v_producer W (with_fun S (F -> B)) T B E :=
    mk_v_producer (map_final_produce_cloning (v_produce P))
      (fun s w => forward (fun i => mk_with_fun i (wf_fun s)) (fun r => r) (v_slurp P (wf_inner s) w))
      (map_final_expose_v P)
      (fun n s w => forward (fun i => mk_with_fun i (wf_fun s)) (fun r => r) (v_consider P n (wf_inner s) w)).

  (** consumer/map_final.rs 46-55: the function is taken out before the inner call. *)
  Definition map_final_close_v (C : v_consumer W S T F E) (fin : B) (s : with_fun S (B -> F)) (w : W)
    : outcome (with_fun S (B -> F) * W * caught (res unit E)) :=
    let* g := expect (wf_fun s) in
    forward (fun i => mk_with_fun i None) (fun r => r) (v_close C (g fin) (wf_inner s) w).

  (** consumer/map_final.rs 42-44, 59-61, 65-70 and 72-74. *)
  Definition map_final_consumer_v (C : v_consumer W S T F E) : v_consumer W (with_fun S (B -> F)) T B E :=
    mk_v_consumer (fun x s w => forward (fun i => mk_with_fun i (wf_fun s)) (fun r => r) (v_consume C x (wf_inner s) w))
      (map_final_close_v C)
      (fun s w => forward (fun i => mk_with_fun i (wf_fun s)) (fun r => r) (v_flush C (wf_inner s) w))
      (fun s w => forward (fun i => mk_with_fun i (wf_fun s)) (fun r => r) (v_expose_slots C (wf_inner s) w))
      (fun ys s => mk_with_fun (v_write C ys (wf_inner s)) (wf_fun s))
      (fun n s w => forward (fun i => mk_with_fun i (wf_fun s)) (fun r => r) (v_consume_slots C n (wf_inner s) w)).
End MapFinal.

Section MapError.
  Context {W S T F E B : Type}.

  (** As [map_error_call] of AdaptorModel.v: the function is taken out after the inner call, if that returns. *)
  Definition map_error_call_v {X} (call : S -> W -> outcome (S * W * caught (res X E))) (s : with_fun S (E -> B)) (w : W)
    : outcome (with_fun S (E -> B) * W * caught (res X B)) :=
    let* (i, w, r) := call (wf_inner s) w in
    match r with
    | Unwound => Ret (mk_with_fun i (wf_fun s), w, Unwound)
    | Done r => let* g := expect (wf_fun s) in Ret (mk_with_fun i None, w, Done (map_err g r))
    end.

  (** producer/map_error.rs 40-46, 50-56, 60-71, 73-79. *)
  Definition map_error_producer_v (P : v_producer W S T F E) : v_producer W (with_fun S (E -> B)) T F B :=
    mk_v_producer (map_error_call_v (v_produce P)) (map_error_call_v (v_slurp P)) (map_error_call_v (v_expose P))
      (fun n => map_error_call_v (v_consider P n)).

  (** consumer/map_error.rs 38-44, 46-52, 56-62, 66-75, 77-83. *)
  Definition map_error_consumer_v (C : v_consumer W S T F E) : v_consumer W (with_fun S (E -> B)) T F B :=
    mk_v_consumer (fun x => map_error_call_v (v_consume C x)) (fun fin => map_error_call_v (v_close C fin)) (map_error_call_v (v_flush C))
      (map_error_call_v (v_expose_slots C)) (fun ys s => mk_with_fun (v_write C ys (wf_inner s)) (wf_fun s))
      (fun n => map_error_call_v (v_consume_slots C n)).
End MapError.

Section MapItem.
  Context {W S T U F E : Type}.

  (** producer/map_item.rs 37-42 and 46-48. MapItem is not a BulkProducer: nobody can call the other two methods. The state is that of the
      inner producer. *)
  Definition map_item_producer_v (f : T -> U) (P : v_producer W S T F E) : v_producer W S U F E :=
    mk_v_producer
      (fun s w => forward (fun i => i) (fun r => match r with Ok (inl x) => Ok (inl (f x)) | Ok (inr fin) => Ok (inr fin) | Err e => Err e end)
                    (v_produce P s w))
      (v_slurp P) (fun _ _ => Panic) (fun _ _ _ => Panic).

  (** consumer/map_item.rs 46-48, 50-52 and 60-62. MapItem is not a BulkConsumer. *)
  Definition map_item_consumer_v (f : U -> T) (C : v_consumer W S T F E) : v_consumer W S U F E :=
    mk_v_consumer (fun x => v_consume C (f x)) (v_close C) (v_flush C) (fun _ _ => Panic) (fun _ s => s) (fun _ _ _ => Panic).
End MapItem.

Section Invariant.
  Context {W S T F E : Type}.

  (** producer/invariant.rs 106-112; consumer/invariant.rs 86-94 and 108-114 are the same. *)
  Definition invariant_call_v (call : S -> W -> outcome (S * W * caught (res unit E))) (s : invariant S) (w : W)
    : outcome (invariant S * W * caught (res unit E)) :=
    inv_check s (
      let* (i, w, r) := call (inv_inner s) w in
      let active := match r with Done (Err _) => false | _ => inv_active s end in
      Ret (mk_invariant i active (inv_exposed s), w, r)).

  (** producer/invariant.rs 116-134. *)
  Definition invariant_expose_v (P : v_producer W S T F E) (s : invariant S) (w : W) : outcome (invariant S * W * caught (res (list T + F) E)) :=
    inv_check s (
      let* (i, w, r) := v_expose P (inv_inner s) w in
      match r with
      | Unwound => Ret (mk_invariant i (inv_active s) (inv_exposed s), w, r)
      | Done (Ok (inl slots)) => Ret (mk_invariant i (inv_active s) (length slots), w, r)
      | Done _ => Ret (mk_invariant i false (inv_exposed s), w, r)
      end).

  (** producer/invariant.rs 136-147; consumer/invariant.rs 138-151 is the same. [exposed_slots] goes down before the inner call. *)
  Definition invariant_mark_v (call : nat -> S -> W -> outcome (S * W * caught (res unit E))) (amount : nat) (s : invariant S) (w : W)
    : outcome (invariant S * W * caught (res unit E)) :=
    inv_check s (
      if inv_exposed s <? amount then Panic
      else
        let* exposed := csub (inv_exposed s) amount in
        forward (fun i => mk_invariant i (inv_active s) exposed) (fun r => r) (call amount (inv_inner s) w)).

  (** [produce] is in CloneSourceModel.v. *)
  Definition invariant_producer_v (P : v_producer W S T F E) : v_producer W (invariant S) T F E :=
    mk_v_producer (invariant_produce_cloning (v_produce P)) (invariant_call_v (v_slurp P)) (invariant_expose_v P)
      (invariant_mark_v (v_consider P)).

  (** consumer/invariant.rs 96-101: inactive before the inner call. *)
  Definition invariant_close_v (C : v_consumer W S T F E) (fin : F) (s : invariant S) (w : W) : outcome (invariant S * W * caught (res unit E)) :=
    inv_check s (forward (fun i => mk_invariant i false (inv_exposed s)) (fun r => r) (v_close C fin (inv_inner s) w)).

  (** consumer/invariant.rs 121-136. *)
  Definition invariant_expose_slots_v (C : v_consumer W S T F E) (s : invariant S) (w : W) : outcome (invariant S * W * caught (res nat E)) :=
    inv_check s (
      let* (i, w, r) := v_expose_slots C (inv_inner s) w in
      match r with
      | Unwound => Ret (mk_invariant i (inv_active s) (inv_exposed s), w, r)
      | Done (Ok slots) => Ret (mk_invariant i (inv_active s) slots, w, r)
      | Done (Err _) => Ret (mk_invariant i false (inv_exposed s), w, r)
      end).

  Definition invariant_consumer_v (C : v_consumer W S T F E) : v_consumer W (invariant S) T F E :=
    mk_v_consumer (fun x => invariant_call_v (v_consume C x)) (invariant_close_v C) (invariant_call_v (v_flush C)) (invariant_expose_slots_v C)
      (fun ys s => mk_invariant (v_write C ys (inv_inner s)) (inv_active s) (inv_exposed s)) (invariant_mark_v (v_consume_slots C)).
End Invariant.

(** [bulk_pipe], lib.rs 579-613. [bulk_consume] is that of the consumer, whatever it is. *)
Section BulkPipe.
  Context {SP SC W T F PE CE : Type}
    (expose : SP -> W -> outcome (SP * W * caught (res (list T + F) PE)))
    (consider : nat -> SP -> W -> outcome (SP * W * caught (res unit PE)))
    (bulk_consume : list T -> SC -> W -> outcome (SC * W * caught (res nat CE)))
    (close : F -> SC -> W -> outcome (SC * W * caught (res unit CE))).

  Fixpoint bulk_pipe_v (fuel : nat) (sp : SP) (sc : SC) (w : W) : outcome (SP * SC * W * caught (res unit (pipe_error PE CE))) :=
    match fuel with
    | 0 => NoFuel
    | Datatypes.S fuel =>
        let* (sp, w, r) := expose sp w in
        match r with
        | Unwound => Ret (sp, sc, w, Unwound)
        | Done (Ok (inl slots)) =>
            let* (sc, w, rc) := bulk_consume slots sc w in
            match rc with
            | Unwound => Ret (sp, sc, w, Unwound)
            | Done (Err consumer_error) => Ret (sp, sc, w, Done (Err (PipeConsumer consumer_error)))
            | Done (Ok amount) =>
                let* (sp, w, rp) := consider amount sp w in
                match rp with
                | Unwound => Ret (sp, sc, w, Unwound)
                | Done (Ok tt) => bulk_pipe_v fuel sp sc w
                | Done (Err producer_error) => Ret (sp, sc, w, Done (Err (PipeProducer producer_error)))
                end
            end
        | Done (Ok (inr final_value)) =>
            let* (sc, w, rc) := close final_value sc w in
            match rc with
            | Unwound => Ret (sp, sc, w, Unwound)
            | Done (Ok tt) => Ret (sp, sc, w, Done (Ok tt))
            | Done (Err consumer_error) => Ret (sp, sc, w, Done (Err (PipeConsumer consumer_error)))
            end
        | Done (Err producer_error) => Ret (sp, sc, w, Done (Err (PipeProducer producer_error)))
        end
    end.
End BulkPipe.

(** Objects that do not panic. *)
Section Calm.
  Context {W S T F E : Type}.

  Definition calm {X} (r : outcome (S * X)) (w : W) : outcome (S * W * caught X) := let* (s, x) := r in Ret (s, w, Done x).
  Definition calm_producer (P : bulk_producer S T F E) : v_producer W S T F E :=
    mk_v_producer (fun s => calm (p_produce P s)) (fun s => calm (p_slurp P s)) (fun s => calm (p_expose P s)) (fun n s => calm (p_consider P n s)).
  Definition calm_consumer (C : bulk_consumer S T F E) : v_consumer W S T F E :=
    mk_v_consumer (fun x s => calm (c_consume C x s)) (fun f s => calm (c_close C f s)) (fun s => calm (c_flush C s))
      (fun s => calm (c_expose C s)) (c_write C) (fun n s => calm (c_consume_slots C n s)).
End Calm.

(** Model of the adaptors Limit, MapItem, MapFinal, MapError and Invariant.

    Paths are relative to ufotofu/src. An adaptor is a function from trait records to trait
    records; its state contains the state of the inner object, so that [into_inner] is a projection.
    None of the adaptors overrides [bulk_produce] or [bulk_consume]: they get
    the defaults over their own methods, whatever the inner object does. *)
From Coq Require Import Bool List Arith.
From Verif Require Import Prelude Traits BasicModel.
Import ListNotations.
Set Implicit Arguments.

(** ** Limit *)

(** producer/limit.rs 7-10, consumer/limit.rs 5-8. *)
Record limit (S : Type) : Type := mk_limit { lim_inner : S; lim_remaining : nat }.

(** producer/limit.rs 35-40, consumer/limit.rs 25-30. *)
Definition limit_new {S} (inner : S) (n : nat) : limit S := mk_limit inner n.

Section LimitProducer.
  Context {S T F E : Type}.

  (** producer/limit.rs 54-65. *)
  Definition limit_produce (P : producer S T F E) (s : limit S)
    : outcome (limit S * res (T + option F) E) :=
    match lim_remaining s with
    | 0 => Ret (s, Ok (inr None))
    | Datatypes.S decremented =>
        let* (i, r) := p_produce P (lim_inner s) in
        let s := mk_limit i decremented in
        match r with
        | Err e => Ret (s, Err e)
        | Ok (inl item) => Ret (s, Ok (inl item))
        | Ok (inr fin) => Ret (s, Ok (inr (Some fin)))
        end
    end.

  (** producer/limit.rs 69-71. *)
  Definition limit_slurp (P : buffered_producer S T F E) (s : limit S) : outcome (limit S * res unit E) :=
    let* (i, r) := p_slurp P (lim_inner s) in
    Ret (mk_limit i (lim_remaining s), r).

  (** producer/limit.rs 75-89. *)
  Definition limit_expose (P : bulk_producer S T F E) (s : limit S)
    : outcome (limit S * res (list T + option F) E) :=
    if lim_remaining s =? 0 then Ret (s, Ok (inr None))
    else
      let* (i, r) := p_expose P (lim_inner s) in
      let s := mk_limit i (lim_remaining s) in
      match r with
      | Err e => Ret (s, Err e)
      | Ok (inl items) =>
          let* items := slice_to (Nat.min (lim_remaining s) (length items)) items in
          Ret (s, Ok (inl items))
      | Ok (inr fin) => Ret (s, Ok (inr (Some fin)))
      end.

  (** producer/limit.rs 91-94. *)
  Definition limit_consider (P : bulk_producer S T F E) (amount : nat) (s : limit S)
    : outcome (limit S * res unit E) :=
    let* remaining := csub (lim_remaining s) amount in
    let* (i, r) := p_consider P amount (lim_inner s) in
    Ret (mk_limit i remaining, r).

  Definition limit_producer (P : bulk_producer S T F E) : bulk_producer (limit S) T (option F) E :=
    bulk_producer_of (limit_produce P) (limit_slurp P) (limit_expose P) (limit_consider P).
End LimitProducer.

Section LimitConsumer.
  Context {S T F E : Type}.

  (** consumer/limit.rs 44-52. *)
  Definition limit_consume (C : consumer S T F E) (item : T) (s : limit S)
    : outcome (limit S * res unit (option E)) :=
    match lim_remaining s with
    | 0 => Ret (s, Err None)
    | Datatypes.S decremented =>
        let* (i, r) := c_consume C item (lim_inner s) in
        Ret (mk_limit i decremented, map_err Some r)
    end.

  (** consumer/limit.rs 54-56. *)
  Definition limit_close (C : consumer S T F E) (fin : F) (s : limit S)
    : outcome (limit S * res unit (option E)) :=
    let* (i, r) := c_close C fin (lim_inner s) in
    Ret (mk_limit i (lim_remaining s), map_err Some r).

  (** consumer/limit.rs 60-62. *)
  Definition limit_flush (C : buffered_consumer S T F E) (s : limit S)
    : outcome (limit S * res unit (option E)) :=
    let* (i, r) := c_flush C (lim_inner s) in
    Ret (mk_limit i (lim_remaining s), map_err Some r).

  (** consumer/limit.rs 66-77; [?] converts the error with [Some]. *)
  Definition limit_expose_slots (C : bulk_consumer S T F E) (s : limit S)
    : outcome (limit S * res nat (option E)) :=
    if lim_remaining s =? 0 then Ret (s, Err None)
    else
      let* (i, r) := c_expose C (lim_inner s) in
      let s := mk_limit i (lim_remaining s) in
      match r with
      | Err e => Ret (s, Err (Some e))
      | Ok len => Ret (s, Ok (Nat.min (lim_remaining s) len))
      end.

  (** The caller writing into the exposed slots, which are the first slots of the inner ones. *)
  Definition limit_write (C : bulk_consumer S T F E) (ys : list T) (s : limit S) : limit S :=
    mk_limit (c_write C ys (lim_inner s)) (lim_remaining s).

  (** consumer/limit.rs 79-82. *)
  Definition limit_consume_slots (C : bulk_consumer S T F E) (amount : nat) (s : limit S)
    : outcome (limit S * res unit (option E)) :=
    let* remaining := csub (lim_remaining s) amount in
    let* (i, r) := c_consume_slots C amount (lim_inner s) in
    Ret (mk_limit i remaining, map_err Some r).

  Definition limit_consumer (C : bulk_consumer S T F E) : bulk_consumer (limit S) T F (option E) :=
    bulk_consumer_of (limit_consume C) (limit_close C) (limit_flush C) (limit_expose_slots C)
      (limit_write C) (limit_consume_slots C).
End LimitConsumer.

(** ** MapItem *)

(** producer/map_item.rs 7-10, consumer/map_item.rs 7-11. The closure is [FnMut]: it may change
    its captured variables [W] on each call. For closures that panic see ClosureModel.v. *)
Record map_item (S W : Type) : Type := mk_map_item { mi_inner : S; mi_closure : W }.

Section MapItem.
  Context {S T U W F E : Type}.

  (** producer/map_item.rs 37-42. *)
  Definition map_item_produce (P : producer S T F E) (f : W -> T -> W * U) (s : map_item S W)
    : outcome (map_item S W * res (U + F) E) :=
    let* (i, r) := p_produce P (mi_inner s) in
    match r with
    | Err e => Ret (mk_map_item i (mi_closure s), Err e)
    | Ok (inl item) =>
        let (w, y) := f (mi_closure s) item in
        Ret (mk_map_item i w, Ok (inl y))
    | Ok (inr fin) => Ret (mk_map_item i (mi_closure s), Ok (inr fin))
    end.

  (** producer/map_item.rs 46-48. *)
  Definition map_item_slurp (P : buffered_producer S T F E) (s : map_item S W)
    : outcome (map_item S W * res unit E) :=
    let* (i, r) := p_slurp P (mi_inner s) in
    Ret (mk_map_item i (mi_closure s), r).

  Definition map_item_producer (P : buffered_producer S T F E) (f : W -> T -> W * U)
    : buffered_producer (map_item S W) U F E :=
    mk_buffered_producer (mk_producer (map_item_produce P f)) (map_item_slurp P).

  (** consumer/map_item.rs 46-48. *)
  Definition map_item_consume (C : consumer S T F E) (f : W -> U -> W * T) (item : U) (s : map_item S W)
    : outcome (map_item S W * res unit E) :=
    let (w, y) := f (mi_closure s) item in
    let* (i, r) := c_consume C y (mi_inner s) in
    Ret (mk_map_item i w, r).

  (** consumer/map_item.rs 50-52. *)
  Definition map_item_close (C : consumer S T F E) (fin : F) (s : map_item S W)
    : outcome (map_item S W * res unit E) :=
    let* (i, r) := c_close C fin (mi_inner s) in
    Ret (mk_map_item i (mi_closure s), r).

  (** consumer/map_item.rs 60-62. *)
  Definition map_item_flush (C : buffered_consumer S T F E) (s : map_item S W)
    : outcome (map_item S W * res unit E) :=
    let* (i, r) := c_flush C (mi_inner s) in
    Ret (mk_map_item i (mi_closure s), r).

  Definition map_item_consumer (C : buffered_consumer S T F E) (f : W -> U -> W * T)
    : buffered_consumer (map_item S W) U F E :=
    mk_buffered_consumer (mk_consumer (map_item_consume C f) (map_item_close C)) (map_item_flush C).
End MapItem.

(** ** MapFinal *)

(** producer/map_final.rs 7-10, consumer/map_final.rs 7-11. The closure is [FnOnce] and is
    taken out of its [Option] when called. *)
Record with_fun (S G : Type) : Type := mk_with_fun { wf_inner : S; wf_fun : option G }.

(** producer/map_final.rs 22-27, consumer/map_final.rs 23-29, producer/map_error.rs 22-27,
    consumer/map_error.rs 20-25. *)
Definition with_fun_new {S G} (inner : S) (g : G) : with_fun S G := mk_with_fun inner (Some g).

Section MapFinalProducer.
  Context {S T F B E : Type}.
  Notation state := (with_fun S (F -> B)).

  (** producer/map_final.rs 40-49 and 65-72: what happens to the result of the inner call. *)
  Definition map_final_result {X} (s : state) (r : res (X + F) E) : outcome (state * res (X + B) E) :=
    match r with
    | Err e => Ret (s, Err e)
    | Ok (inl x) => Ret (s, Ok (inl x))
    | Ok (inr fin) =>
        let* g := expect (wf_fun s) in
        Ret (mk_with_fun (wf_inner s) None, Ok (inr (g fin)))
    end.

  (** producer/map_final.rs 40-49. *)
  Definition map_final_produce (P : producer S T F E) (s : state) : outcome (state * res (T + B) E) :=
    let* (i, r) := p_produce P (wf_inner s) in
    map_final_result (mk_with_fun i (wf_fun s)) r.

  (** producer/map_final.rs 53-55. *)
  Definition map_final_slurp (P : buffered_producer S T F E) (s : state) : outcome (state * res unit E) :=
    let* (i, r) := p_slurp P (wf_inner s) in
    Ret (mk_with_fun i (wf_fun s), r).

  (** producer/map_final.rs 59-73. *)
  Definition map_final_expose (P : bulk_producer S T F E) (s : state)
    : outcome (state * res (list T + B) E) :=
    let* (i, r) := p_expose P (wf_inner s) in
    map_final_result (mk_with_fun i (wf_fun s)) r.

  (** producer/map_final.rs 75-77. *)
  Definition map_final_consider (P : bulk_producer S T F E) (amount : nat) (s : state)
    : outcome (state * res unit E) :=
    let* (i, r) := p_consider P amount (wf_inner s) in
    Ret (mk_with_fun i (wf_fun s), r).

  Definition map_final_producer (P : bulk_producer S T F E) : bulk_producer state T B E :=
    bulk_producer_of (map_final_produce P) (map_final_slurp P) (map_final_expose P) (map_final_consider P).
End MapFinalProducer.

Section MapFinalConsumer.
  Context {S T F B E : Type}.
  Notation state := (with_fun S (B -> F)).

  (** consumer/map_final.rs 42-44. *)
  Definition map_final_consume (C : consumer S T F E) (item : T) (s : state) : outcome (state * res unit E) :=
    let* (i, r) := c_consume C item (wf_inner s) in
    Ret (mk_with_fun i (wf_fun s), r).

  (** consumer/map_final.rs 46-55. *)
  Definition map_final_close (C : consumer S T F E) (fin : B) (s : state) : outcome (state * res unit E) :=
    let* g := expect (wf_fun s) in
    let* (i, r) := c_close C (g fin) (wf_inner s) in
    Ret (mk_with_fun i None, r).

  (** consumer/map_final.rs 59-61. *)
  Definition map_final_flush (C : buffered_consumer S T F E) (s : state) : outcome (state * res unit E) :=
    let* (i, r) := c_flush C (wf_inner s) in
    Ret (mk_with_fun i (wf_fun s), r).

  (** consumer/map_final.rs 65-70. *)
  Definition map_final_expose_slots (C : bulk_consumer S T F E) (s : state) : outcome (state * res nat E) :=
    let* (i, r) := c_expose C (wf_inner s) in
    Ret (mk_with_fun i (wf_fun s), r).

  Definition map_final_write (C : bulk_consumer S T F E) (ys : list T) (s : state) : state :=
    mk_with_fun (c_write C ys (wf_inner s)) (wf_fun s).

  (** consumer/map_final.rs 72-74. *)
  Definition map_final_consume_slots (C : bulk_consumer S T F E) (amount : nat) (s : state)
    : outcome (state * res unit E) :=
    let* (i, r) := c_consume_slots C amount (wf_inner s) in
    Ret (mk_with_fun i (wf_fun s), r).

  Definition map_final_consumer (C : bulk_consumer S T F E) : bulk_consumer state T B E :=
    bulk_consumer_of (map_final_consume C) (map_final_close C) (map_final_flush C)
      (map_final_expose_slots C) (map_final_write C) (map_final_consume_slots C).
End MapFinalConsumer.

(** ** MapError *)

Section MapError.
  Context {S T F E B : Type}.
  Notation state := (with_fun S (E -> B)).

  (** [self.inner.method().await.map_err(self.fun.take().expect(..))]: the argument of [map_err] is
      evaluated after the inner call and whatever that call returned. *)
  Definition map_error_call {X} (call : S -> outcome (S * res X E)) (s : state)
    : outcome (state * res X B) :=
    let* (i, r) := call (wf_inner s) in
    let* g := expect (wf_fun s) in
    Ret (mk_with_fun i None, map_err g r).

  (** producer/map_error.rs 40-46, 50-56, 60-71, 73-79. *)
  Definition map_error_producer (P : bulk_producer S T F E) : bulk_producer state T F B :=
    bulk_producer_of (map_error_call (p_produce P)) (map_error_call (p_slurp P))
      (map_error_call (p_expose P)) (fun amount => map_error_call (p_consider P amount)).

  (** consumer/map_error.rs 38-44, 46-52, 56-62, 66-75, 77-83. *)
  Definition map_error_consumer (C : bulk_consumer S T F E) : bulk_consumer state T F B :=
    bulk_consumer_of (fun item => map_error_call (c_consume C item)) (fun fin => map_error_call (c_close C fin))
      (map_error_call (c_flush C)) (map_error_call (c_expose C))
      (fun ys s => mk_with_fun (c_write C ys (wf_inner s)) (wf_fun s))
      (fun amount => map_error_call (c_consume_slots C amount)).
End MapError.

(** ** Invariant *)

(** producer/invariant.rs 27-35, consumer/invariant.rs 23-31. *)
Record invariant (S : Type) : Type := mk_invariant { inv_inner : S; inv_active : bool; inv_exposed : nat }.

(** producer/invariant.rs 48-54, consumer/invariant.rs 44-50. *)
Definition invariant_new {S} (inner : S) : invariant S := mk_invariant inner true 0.

(** [check_inactive], producer/invariant.rs 63-67, consumer/invariant.rs 59-63, in front of [k]. *)
Definition inv_check {S X} (s : invariant S) (k : outcome X) : outcome X :=
  if inv_active s then k else Panic.

Section InvariantProducer.
  Context {S T F E : Type}.

  (** producer/invariant.rs 87-102. *)
  Definition invariant_produce (P : producer S T F E) (s : invariant S)
    : outcome (invariant S * res (T + F) E) :=
    inv_check s (
      let* (i, r) := p_produce P (inv_inner s) in
      let active := match r with Ok (inl _) => inv_active s | _ => false end in
      Ret (mk_invariant i active (inv_exposed s), r)).

  (** producer/invariant.rs 106-112. *)
  Definition invariant_slurp (P : buffered_producer S T F E) (s : invariant S)
    : outcome (invariant S * res unit E) :=
    inv_check s (
      let* (i, r) := p_slurp P (inv_inner s) in
      let active := match r with Ok _ => inv_active s | Err _ => false end in
      Ret (mk_invariant i active (inv_exposed s), r)).

  (** producer/invariant.rs 116-134. *)
  Definition invariant_expose (P : bulk_producer S T F E) (s : invariant S)
    : outcome (invariant S * res (list T + F) E) :=
    inv_check s (
      let* (i, r) := p_expose P (inv_inner s) in
      match r with
      | Ok (inl slots) => Ret (mk_invariant i (inv_active s) (length slots), r)
      | _ => Ret (mk_invariant i false (inv_exposed s), r)
      end).

  (** producer/invariant.rs 136-147. *)
  Definition invariant_consider (P : bulk_producer S T F E) (amount : nat) (s : invariant S)
    : outcome (invariant S * res unit E) :=
    inv_check s (
      if inv_exposed s <? amount then Panic
      else
        let* exposed := csub (inv_exposed s) amount in
        let* (i, r) := p_consider P amount (inv_inner s) in
        Ret (mk_invariant i (inv_active s) exposed, r)).

  Definition invariant_producer (P : bulk_producer S T F E) : bulk_producer (invariant S) T F E :=
    bulk_producer_of (invariant_produce P) (invariant_slurp P) (invariant_expose P) (invariant_consider P).

  (** producer/invariant_noop.rs 69-92: every method forwards. The record with one field is
      identified with that field. *)
  Definition invariant_noop_producer (P : bulk_producer S T F E) : bulk_producer S T F E :=
    bulk_producer_of (p_produce P) (p_slurp P) (p_expose P) (p_consider P).
End InvariantProducer.

Section InvariantConsumer.
  Context {S T F E : Type}.

  (** consumer/invariant.rs 86-94. *)
  Definition invariant_consume (C : consumer S T F E) (item : T) (s : invariant S)
    : outcome (invariant S * res unit E) :=
    inv_check s (
      let* (i, r) := c_consume C item (inv_inner s) in
      let active := match r with Ok _ => inv_active s | Err _ => false end in
      Ret (mk_invariant i active (inv_exposed s), r)).

  (** consumer/invariant.rs 96-101. *)
  Definition invariant_close (C : consumer S T F E) (fin : F) (s : invariant S)
    : outcome (invariant S * res unit E) :=
    inv_check s (
      let* (i, r) := c_close C fin (inv_inner s) in
      Ret (mk_invariant i false (inv_exposed s), r)).

  (** consumer/invariant.rs 108-114. *)
  Definition invariant_flush (C : buffered_consumer S T F E) (s : invariant S)
    : outcome (invariant S * res unit E) :=
    inv_check s (
      let* (i, r) := c_flush C (inv_inner s) in
      let active := match r with Ok _ => inv_active s | Err _ => false end in
      Ret (mk_invariant i active (inv_exposed s), r)).

  (** consumer/invariant.rs 121-136. *)
  Definition invariant_expose_slots (C : bulk_consumer S T F E) (s : invariant S)
    : outcome (invariant S * res nat E) :=
    inv_check s (
      let* (i, r) := c_expose C (inv_inner s) in
      match r with
      | Ok slots => Ret (mk_invariant i (inv_active s) slots, r)
      | Err _ => Ret (mk_invariant i false (inv_exposed s), r)
      end).

  Definition invariant_write (C : bulk_consumer S T F E) (ys : list T) (s : invariant S) : invariant S :=
    mk_invariant (c_write C ys (inv_inner s)) (inv_active s) (inv_exposed s).

  (** consumer/invariant.rs 138-151. *)
  Definition invariant_consume_slots (C : bulk_consumer S T F E) (amount : nat) (s : invariant S)
    : outcome (invariant S * res unit E) :=
    inv_check s (
      if inv_exposed s <? amount then Panic
      else
        let* exposed := csub (inv_exposed s) amount in
        let* (i, r) := c_consume_slots C amount (inv_inner s) in
        Ret (mk_invariant i (inv_active s) exposed, r)).

  Definition invariant_consumer (C : bulk_consumer S T F E) : bulk_consumer (invariant S) T F E :=
    bulk_consumer_of (invariant_consume C) (invariant_close C) (invariant_flush C) (invariant_expose_slots C)
      (invariant_write C) (invariant_consume_slots C).

  (** consumer/invariant_noop.rs 68-99. *)
  Definition invariant_noop_consumer (C : bulk_consumer S T F E) : bulk_consumer S T F E :=
    bulk_consumer_of (c_consume C) (c_close C) (c_flush C) (c_expose C) (c_write C) (c_consume_slots C).
End InvariantConsumer.

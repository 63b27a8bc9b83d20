(** Model of the consumers that collect items, and of Limit and Invariant around them, for an
    arbitrary implementation of [Default].

    The other model files take [Default::default()] to be a constant. Here [default w] runs the
    user's [default] in the world [w]: it answers the world afterwards and the value, or
    [None] if it panics. As in CloneModel.v, the state in which a panic leaves the object is
    part of the answer, since the caller may catch the panic and use the object again. *)
From Coq Require Import Bool List Arith.
From Verif Require Import Prelude Traits BasicModel AdaptorModel CloneModel.
Import ListNotations.
Set Implicit Arguments.

(** A consumer in whose [consume] and [expose_slots] the user's code may panic. Of [u_calm],
    only [close], [flush], [consume_slots] and the writing into slots are used. *)
Record u_consumer (W S T F E : Type) : Type := mk_u_consumer {
  u_consume : T -> S -> W -> outcome (S * W * caught (res unit E));
  u_expose : S -> W -> outcome (S * W * caught (res nat E));
  u_calm : bulk_consumer S T F E
}.

(** [u_calm] of a consumer with the given methods. *)
Definition calm_of {S T F E} (close : F -> S -> outcome (S * res unit E)) (flush : S -> outcome (S * res unit E))
    (write : list T -> S -> S) (consume_slots : nat -> S -> outcome (S * res unit E)) : bulk_consumer S T F E :=
  bulk_consumer_of (fun _ _ => Panic) close flush (fun _ => Panic) write consume_slots.

Section Default.
  Context {W T : Type} (default : W -> W * option T) (keep : nat -> nat).

  (** The values that [n] calls make, and whether none of them panicked. *)
  Fixpoint default_each (n : nat) (w : W) : W * (list T * bool) :=
    match n with
    | 0 => (w, ([], true))
    | S n =>
        match default w with
        | (w, None) => (w, ([], false))
        | (w, Some y) => match default_each n w with (w, (ys, b)) => (w, (y :: ys, b)) end
        end
    end.

  (** [Vec::resize_with(n, Default::default)] of the standard library. How many of the values that had
      been made when [default] panics stay in the vector is not documented; [keep] says how many. *)
  Definition resize_with (n : nat) (v : list T) (w : W) : W * (list T * bool) :=
    match default_each (n - length v) w with
    | (w, (ys, true)) => (w, (firstn n v ++ ys, true))
    | (w, (ys, false)) => (w, (v ++ firstn (keep (length ys)) ys, false))
    end.

  (** ** IntoVec *)

  (** consumer/into_vec.rs 150-155. *)
  Definition into_vec_make_space_if_needed_u (s : into_vec T) (w : W) : into_vec T * W * bool :=
    if iv_consumed s =? length (iv_v s)
    then match resize_with (iv_consumed s * 2 + 1) (iv_v s) w with (w, (v, b)) => (mk_into_vec v (iv_consumed s), w, b) end
    else (s, w, true).

  (** consumer/into_vec.rs 157-159. *)
  Definition into_vec_make_space_even_if_not_needed_u (s : into_vec T) (w : W) : into_vec T * W * bool :=
    match resize_with (length (iv_v s) * 2 + 1) (iv_v s) w with (w, (v, b)) => (mk_into_vec v (iv_consumed s), w, b) end.

  (** consumer/into_vec.rs 171-179. *)
  Definition into_vec_consume_u (item : T) (s : into_vec T) (w : W) : outcome (into_vec T * W * caught (res unit infallible)) :=
    match into_vec_make_space_if_needed_u s w with
    | (s, w, false) => Ret (s, w, Unwound)
    | (s, w, true) =>
        let* v := index_set (iv_consumed s) item (iv_v s) in
        Ret (mk_into_vec v (iv_consumed s + 1), w, Done (Ok tt))
    end.

  (** consumer/into_vec.rs 193-201. *)
  Definition into_vec_expose_u (s : into_vec T) (w : W) : outcome (into_vec T * W * caught (res nat infallible)) :=
    match into_vec_make_space_if_needed_u s w with
    | (s, w, false) => Ret (s, w, Unwound)
    | (s, w, true) =>
        let* slots := slice_from (iv_consumed s) (iv_v s) in
        Ret (s, w, Done (Ok (length slots)))
    end.

  (** The other methods do not call [default]. *)
  Definition into_vec_u : u_consumer W (into_vec T) T unit infallible :=
    mk_u_consumer into_vec_consume_u into_vec_expose_u
      (calm_of (@into_vec_close T) (@into_vec_flush T) (@into_vec_write T) (@into_vec_consume_slots T)).

  (** ** TestConsumer *)
  Section TestConsumer.
    Context {F E : Type}.
    Notation state := (test_consumer_state T F E).

    Definition tc_set_inner (i : into_vec T) (s : state) : state :=
      mk_tc i (tc_fin s) (tc_error s) (tc_left s) (tc_sizes s) (tc_yielder s).

    (** consumer/test_consumer.rs 366-373. *)
    Definition test_consumer_consume_u (item : T) (s : state) (w : W) : outcome (state * W * caught (res unit E)) :=
      let* s := tc_maybe_yield s in
      let* (s, e) := tc_check_error s in
      match e with
      | Some err => Ret (s, w, Done (Err err))
      | None =>
          let* (i, w, r) := into_vec_consume_u item (tc_inner s) w in
          match r with
          | Unwound => Ret (tc_set_inner i s, w, Unwound)
          | Done _ =>
              let* rem := csub (tc_left s) 1 in
              Ret (mk_tc i (tc_fin s) (tc_error s) rem (tc_sizes s) (tc_yielder s), w, Done (Ok tt))
          end
      end.

    (** The [while] loop of [expose_slots], consumer/test_consumer.rs 417-419. *)
    Fixpoint tc_grow_u (fuel min_len : nat) (i : into_vec T) (w : W) : outcome (into_vec T * W * bool) :=
      match fuel with
      | 0 => NoFuel
      | S fuel =>
          let* slots := into_vec_remaining_slots i in
          if slots <? min_len then
            match into_vec_make_space_even_if_not_needed_u i w with
            | (i, w, true) => tc_grow_u fuel min_len i w
            | (i, w, false) => Ret (i, w, false)
            end
          else Ret (i, w, true)
      end.

    (** consumer/test_consumer.rs 399-428; the index into the sizes is advanced before anything can panic. *)
    Definition test_consumer_expose_u (s : state) (w : W) : outcome (state * W * caught (res nat E)) :=
      let* s := tc_maybe_yield s in
      let* (s, e) := tc_check_error s in
      match e with
      | Some err => Ret (s, w, Done (Err err))
      | None =>
          let* (max_len, sz) :=
            match tc_sizes s with
            | None => Ret (None, None)
            | Some sz => let* (n, sz) := next_size sz in Ret (Some n, Some sz)
            end in
          let s := mk_tc (tc_inner s) (tc_fin s) (tc_error s) (tc_left s) sz (tc_yielder s) in
          let min_len := min_opt 2048 max_len in
          let* (i, w, b) := tc_grow_u (min_len + 1) min_len (tc_inner s) w in
          if b then
            let* (i, w, r) := into_vec_expose_u i w in
            match r with
            | Unwound => Ret (tc_set_inner i s, w, Unwound)
            | Done (Ok slots) => Ret (tc_set_inner i s, w, Done (Ok (Nat.min (min_opt slots max_len) (tc_left s))))
            | Done (Err _) => Panic
            end
          else Ret (tc_set_inner i s, w, Unwound)
      end.

    Definition test_consumer_u : u_consumer W state T F E :=
      mk_u_consumer test_consumer_consume_u test_consumer_expose_u
        (calm_of (@test_consumer_close T F E) (@test_consumer_flush T F E) (@test_consumer_write T F E)
           (@test_consumer_consume_slots T F E)).
  End TestConsumer.
End Default.

Section Around.
  Context {W S T F E : Type} (U : u_consumer W S T F E).

  (** ** Limit *)

  (** consumer/limit.rs 44-52: [remaining] is decremented before the inner [consume] is called. *)
  Definition limit_consume_u (item : T) (s : limit S) (w : W) : outcome (limit S * W * caught (res unit (option E))) :=
    match lim_remaining s with
    | 0 => Ret (s, w, Done (Err None))
    | Datatypes.S decremented =>
        let* (i, w, r) := u_consume U item (lim_inner s) w in
        Ret (mk_limit i decremented, w, match r with Done r => Done (map_err Some r) | Unwound => Unwound end)
    end.

  (** consumer/limit.rs 66-77. *)
  Definition limit_expose_u (s : limit S) (w : W) : outcome (limit S * W * caught (res nat (option E))) :=
    if lim_remaining s =? 0 then Ret (s, w, Done (Err None))
    else
      let* (i, w, r) := u_expose U (lim_inner s) w in
      let s := mk_limit i (lim_remaining s) in
      match r with
      | Unwound => Ret (s, w, Unwound)
      | Done (Err e) => Ret (s, w, Done (Err (Some e)))
      | Done (Ok len) => Ret (s, w, Done (Ok (Nat.min (lim_remaining s) len)))
      end.

  Definition limit_u : u_consumer W (limit S) T F (option E) :=
    mk_u_consumer limit_consume_u limit_expose_u (limit_consumer (u_calm U)).

  (** ** Invariant *)

  (** consumer/invariant.rs 86-94. *)
  Definition invariant_consume_u (item : T) (s : invariant S) (w : W) : outcome (invariant S * W * caught (res unit E)) :=
    inv_check s (
      let* (i, w, r) := u_consume U item (inv_inner s) w in
      let active := match r with Done (Err _) => false | _ => inv_active s end in
      Ret (mk_invariant i active (inv_exposed s), w, r)).

  (** consumer/invariant.rs 121-136. *)
  Definition invariant_expose_u (s : invariant S) (w : W) : outcome (invariant S * W * caught (res nat E)) :=
    inv_check s (
      let* (i, w, r) := u_expose U (inv_inner s) w in
      match r with
      | Done (Ok slots) => Ret (mk_invariant i (inv_active s) slots, w, r)
      | Done (Err _) => Ret (mk_invariant i false (inv_exposed s), w, r)
      | Unwound => Ret (mk_invariant i (inv_active s) (inv_exposed s), w, r)
      end).

  Definition invariant_u : u_consumer W (invariant S) T F E :=
    mk_u_consumer invariant_consume_u invariant_expose_u (invariant_consumer (u_calm U)).

  (** [BulkConsumer::bulk_consume], lib.rs 237-252, with the user's [clone]. *)
  Definition bulk_consume_u (clone : T -> W -> W * option T) (buf : list T) (s : S) (w : W) : outcome (S * W * caught (res nat E)) :=
    let* (s, w, r) := u_expose U s w in
    match r with
    | Unwound => Ret (s, w, Unwound)
    | Done (Err e) => Ret (s, w, Done (Err e))
    | Done (Ok slots) =>
        let amount := Nat.min slots (length buf) in
        match clone_each clone (firstn amount buf) w with
        | (w, (ys, true)) =>
            let s := c_write (u_calm U) ys s in
            let* (s, r) := c_consume_slots (u_calm U) amount s in
            match r with
            | Err e => Ret (s, w, Done (Err e))
            | Ok tt => Ret (s, w, Done (Ok amount))
            end
        | (w, (ys, false)) => Ret (c_write (u_calm U) ys s, w, Unwound)
        end
    end.
End Around.

(** Model of the asynchronous functions, poll by poll.

    The other files model a method that returns a future as running to completion in one step. Here, a future is what
    it is in Rust: something that is polled, and each time either is ready or asks to be polled again later. The functions
    are those of ufotofu/src and of ufotofu_codec/src, translated [.await] by [.await].

    Simplifications: a future borrows the object it was created from, so it is a tree of polls over the state of that object.
    All futures of the model become ready after finitely many polls, but there is no bound on how many, and it may depend
    on the state. Loops take fuel. Closures, queues, slices and slots as in the other files. Of the waker it is
    recorded whether somebody has called it by the time the poll returns. *)
From Coq Require Import Bool List Arith.
From Coq.Init Require Import Byte.
From Verif Require Import Prelude QueueModel Traits BasicModel AdaptorModel ScramblerModel CodecModel EndianModel.
Import ListNotations.
Set Implicit Arguments.

(** ** Futures *)

(** [core::task::Poll]. [woken]: the waker was called. *)
Inductive poll_result (X K : Type) : Type :=
| Ready (x : X)
| Pending (woken : bool) (k : K).
Arguments Ready {X K} x.
Arguments Pending {X K} woken k.

(** A future with output [X] that has exclusive access to an object with state [S]. *)
Inductive fut (S X : Type) : Type :=
| Fut (poll : S -> outcome (S * poll_result X (fut S X))).
Arguments Fut {S X} poll.

(** [Future::poll] *)
Definition poll {S X} (f : fut S X) : S -> outcome (S * poll_result X (fut S X)) := match f with Fut p => p end.

(** [f.await], then the rest of the [async] block: what comes after a future that is ready is executed at once. *)
Fixpoint await {S X Y} (f : fut S X) (k : X -> fut S Y) : fut S Y :=
  match f with
  | Fut p =>
      Fut (fun s => match p s with
                    | Ret (s', Ready x) => poll (k x) s'
                    | Ret (s', Pending w f') => Ret (s', Pending w (await f' k))
                    | Panic => Panic
                    | NoFuel => NoFuel
                    end)
  end.

Notation "'let!' x := f 'in' k" := (await f (fun x => k)) (at level 200, x pattern, f at level 100, k at level 200).

(** Code without [.await]. *)
Definition sync {S X} (g : S -> outcome (S * X)) : fut S X := Fut (fun s => let* (s', x) := g s in Ret (s', Ready x)).
Definition ret {S X} (x : X) : fut S X := sync (fun s => Ret (s, x)).
Definition attempt {S X} (o : outcome X) : fut S X := sync (fun s => let* x := o in Ret (s, x)).
Definition get {S} : fut S S := sync (fun s => Ret (s, s)).
Definition put {S} (s : S) : fut S unit := sync (fun _ => Ret (s, tt)).
Definition out_of_fuel {S X} : fut S X := sync (fun _ => NoFuel).

(** A future of a field, in a method of the object that has this field. *)
Fixpoint within {S I X} (field : S -> I) (set : I -> S -> S) (f : fut I X) : fut S X :=
  match f with
  | Fut p =>
      Fut (fun s => match p (field s) with
                    | Ret (i, Ready x) => Ret (set i s, Ready x)
                    | Ret (i, Pending w f') => Ret (set i s, Pending w (within field set f'))
                    | Panic => Panic
                    | NoFuel => NoFuel
                    end)
  end.

Definition on_fst {A B X} (f : fut A X) : fut (A * B) X := within fst (fun a s => (a, snd s)) f.
Definition on_snd {A B X} (f : fut B X) : fut (A * B) X := within snd (fun b s => (fst s, b)) f.

(** ** The traits, lib.rs *)
Record a_producer (S T F E : Type) : Type := mk_a_producer {
  ap_produce : fut S (res (T + F) E)
}.
Record a_buffered_producer (S T F E : Type) : Type := mk_a_buffered_producer {
  ap_producer :> a_producer S T F E;
  ap_slurp : fut S (res unit E)
}.
Record a_bulk_producer (S T F E : Type) : Type := mk_a_bulk_producer {
  ap_buffered :> a_buffered_producer S T F E;
  ap_expose : fut S (res (list T + F) E);
  ap_consider : nat -> fut S (res unit E);
  ap_bulk_produce : list T -> fut S (list T * res (nat + F) E)
}.
Record a_consumer (S T F E : Type) : Type := mk_a_consumer {
  ac_consume : T -> fut S (res unit E);
  ac_close : F -> fut S (res unit E)
}.
Record a_buffered_consumer (S T F E : Type) : Type := mk_a_buffered_consumer {
  ac_consumer :> a_consumer S T F E;
  ac_flush : fut S (res unit E)
}.
Record a_bulk_consumer (S T F E : Type) : Type := mk_a_bulk_consumer {
  ac_buffered :> a_buffered_consumer S T F E;
  ac_expose : fut S (res nat E);
  ac_write : list T -> S -> S;
  ac_consume_slots : nat -> fut S (res unit E);
  ac_bulk_consume : list T -> fut S (res nat E)
}.

(** *** Default methods *)
Section Defaults.
  Context {S T F E : Type}.

  (** [bulk_produce], lib.rs 469-489. *)
  Definition a_bulk_produce (expose : fut S (res (list T + F) E)) (consider : nat -> fut S (res unit E)) (buf : list T)
    : fut S (list T * res (nat + F) E) :=
    let! r := expose in
    match r with
    | Err e => ret (buf, Err e)
    | Ok (inl slots) =>
        let amount := Nat.min (length slots) (length buf) in
        let buf := firstn amount slots ++ skipn amount buf in
        let! r := consider amount in
        match r with
        | Err e => ret (buf, Err e)
        | Ok tt => ret (buf, Ok (inl amount))
        end
    | Ok (inr final_value) => ret (buf, Ok (inr final_value))
    end.

  (** [bulk_consume], lib.rs 237-252. *)
  Definition a_bulk_consume (expose : fut S (res nat E)) (write : list T -> S -> S) (consume_slots : nat -> fut S (res unit E))
      (buf : list T) : fut S (res nat E) :=
    let! r := expose in
    match r with
    | Err e => ret (Err e)
    | Ok slots =>
        let amount := Nat.min slots (length buf) in
        let! _ := sync (fun s => Ret (write (firstn amount buf) s, tt)) in
        let! r := consume_slots amount in
        match r with
        | Err e => ret (Err e)
        | Ok tt => ret (Ok amount)
        end
    end.

  (** [consume_full_slice], lib.rs 136-157. *)
  Fixpoint a_consume_full_slice_from (C : a_consumer S T F E) (i : nat) (buf : list T) : fut S (res unit (consume_at_least_error E)) :=
    match buf with
    | [] => ret (Ok tt)
    | item :: buf =>
        let! r := ac_consume C item in
        match r with
        | Err err => ret (Err (mk_cale i err))
        | Ok tt => a_consume_full_slice_from C (i + 1) buf
        end
    end.
  Definition a_consume_full_slice (C : a_consumer S T F E) (buf : list T) := a_consume_full_slice_from C 0 buf.

  (** [bulk_consume_full_slice], lib.rs 269-293. *)
  Fixpoint a_bulk_consume_full_slice_loop (fuel : nat) (C : a_bulk_consumer S T F E) (consumed_so_far : nat) (buf : list T)
    : fut S (res unit (consume_at_least_error E)) :=
    match fuel with
    | 0 => out_of_fuel
    | Datatypes.S fuel =>
        if consumed_so_far <? length buf then
          let! rest := attempt (slice_from consumed_so_far buf) in
          let! r := ac_bulk_consume C rest in
          match r with
          | Ok consumed_count => a_bulk_consume_full_slice_loop fuel C (consumed_so_far + consumed_count) buf
          | Err err => ret (Err (mk_cale consumed_so_far err))
          end
        else ret (Ok tt)
    end.
  Definition a_bulk_consume_full_slice (fuel : nat) (C : a_bulk_consumer S T F E) (buf : list T) :=
    a_bulk_consume_full_slice_loop fuel C 0 buf.

  (** [produce_item], lib.rs 337-354. *)
  Definition a_produce_item (P : a_producer S T F E) : fut S (res T (produce_at_least_error F E)) :=
    let! r := ap_produce P in
    match r with
    | Ok (inl item) => ret (Ok item)
    | Ok (inr fin) => ret (Err (mk_pale 0 (inl fin)))
    | Err err => ret (Err (mk_pale 0 (inr err)))
    end.

  (** [overwrite_full_slice], lib.rs 371-396. *)
  Fixpoint a_overwrite_full_slice_from (P : a_producer S T F E) (todo i : nat) (buf : list T)
    : fut S (list T * res unit (produce_at_least_error F E)) :=
    match todo with
    | 0 => ret (buf, Ok tt)
    | Datatypes.S todo =>
        let! r := ap_produce P in
        match r with
        | Ok (inl item) =>
            let! buf := attempt (index_set i item buf) in
            a_overwrite_full_slice_from P todo (i + 1) buf
        | Ok (inr fin) => ret (buf, Err (mk_pale i (inl fin)))
        | Err err => ret (buf, Err (mk_pale i (inr err)))
        end
    end.
  Definition a_overwrite_full_slice (P : a_producer S T F E) (buf : list T) :=
    a_overwrite_full_slice_from P (length buf) 0 buf.

  (** [bulk_overwrite_full_slice], lib.rs 506-536. *)
  Fixpoint a_bulk_overwrite_full_slice_loop (fuel : nat) (P : a_bulk_producer S T F E) (produced_so_far : nat) (buf : list T)
    : fut S (list T * res unit (produce_at_least_error F E)) :=
    match fuel with
    | 0 => out_of_fuel
    | Datatypes.S fuel =>
        if produced_so_far <? length buf then
          let! rest := attempt (slice_from produced_so_far buf) in
          let! (rest, r) := ap_bulk_produce P rest in
          let buf := firstn produced_so_far buf ++ rest in
          match r with
          | Ok (inl count) => a_bulk_overwrite_full_slice_loop fuel P (produced_so_far + count) buf
          | Ok (inr fin) => ret (buf, Err (mk_pale produced_so_far (inl fin)))
          | Err err => ret (buf, Err (mk_pale produced_so_far (inr err)))
          end
        else ret (buf, Ok tt)
    end.
  Definition a_bulk_overwrite_full_slice (fuel : nat) (P : a_bulk_producer S T F E) (buf : list T) :=
    a_bulk_overwrite_full_slice_loop fuel P 0 buf.

  (** Objects with the default [bulk_produce] or [bulk_consume]. *)
  Definition a_bulk_producer_of (produce : fut S (res (T + F) E)) (slurp : fut S (res unit E))
      (expose : fut S (res (list T + F) E)) (consider : nat -> fut S (res unit E)) : a_bulk_producer S T F E :=
    mk_a_bulk_producer (mk_a_buffered_producer (mk_a_producer produce) slurp) expose consider (a_bulk_produce expose consider).
  Definition a_bulk_consumer_of (consume : T -> fut S (res unit E)) (close : F -> fut S (res unit E)) (flush : fut S (res unit E))
      (expose : fut S (res nat E)) (write : list T -> S -> S) (consume_slots : nat -> fut S (res unit E)) : a_bulk_consumer S T F E :=
    mk_a_bulk_consumer (mk_a_buffered_consumer (mk_a_consumer consume close) flush) expose write consume_slots
      (a_bulk_consume expose write consume_slots).
End Defaults.

(** *** Pipes. The future has access to both the producer and the consumer. *)
Section Pipes.
  Context {SP SC T F PE CE : Type}.
  Notation on_producer := (@on_fst SP SC _).
  Notation on_consumer := (@on_snd SP SC _).

  (** [pipe], lib.rs 541-574. *)
  Fixpoint a_pipe (fuel : nat) (P : a_producer SP T F PE) (C : a_consumer SC T F CE) : fut (SP * SC) (res unit (pipe_error PE CE)) :=
    match fuel with
    | 0 => out_of_fuel
    | S fuel =>
        let! r := on_producer (ap_produce P) in
        match r with
        | Ok (inl item) =>
            let! rc := on_consumer (ac_consume C item) in
            match rc with
            | Ok tt => a_pipe fuel P C
            | Err consumer_error => ret (Err (PipeConsumer consumer_error))
            end
        | Ok (inr final_value) =>
            let! rc := on_consumer (ac_close C final_value) in
            match rc with
            | Ok tt => ret (Ok tt)
            | Err consumer_error => ret (Err (PipeConsumer consumer_error))
            end
        | Err producer_error => ret (Err (PipeProducer producer_error))
        end
    end.

  (** [bulk_pipe], lib.rs 579-613. *)
  Fixpoint a_bulk_pipe (fuel : nat) (P : a_bulk_producer SP T F PE) (C : a_bulk_consumer SC T F CE)
    : fut (SP * SC) (res unit (pipe_error PE CE)) :=
    match fuel with
    | 0 => out_of_fuel
    | S fuel =>
        let! r := on_producer (ap_expose P) in
        match r with
        | Ok (inl slots) =>
            let! rc := on_consumer (ac_bulk_consume C slots) in
            match rc with
            | Ok amount =>
                let! r := on_producer (ap_consider P amount) in
                match r with
                | Ok tt => a_bulk_pipe fuel P C
                | Err producer_error => ret (Err (PipeProducer producer_error))
                end
            | Err consumer_error => ret (Err (PipeConsumer consumer_error))
            end
        | Ok (inr final_value) =>
            let! rc := on_consumer (ac_close C final_value) in
            match rc with
            | Ok tt => ret (Ok tt)
            | Err consumer_error => ret (Err (PipeConsumer consumer_error))
            end
        | Err producer_error => ret (Err (PipeProducer producer_error))
        end
    end.

  (** [pipe_at_most], lib.rs 620-658. *)
  Fixpoint a_pipe_at_most_loop (todo : nat) (P : a_producer SP T F PE) (C : a_consumer SC T F CE) (piped : nat)
    : fut (SP * SC) (res nat (pipe_error PE CE)) :=
    match todo with
    | 0 => ret (Ok piped)
    | S todo =>
        let! r := on_producer (ap_produce P) in
        match r with
        | Ok (inl item) =>
            let! rc := on_consumer (ac_consume C item) in
            match rc with
            | Ok tt => a_pipe_at_most_loop todo P C (piped + 1)
            | Err consumer_error => ret (Err (PipeConsumer consumer_error))
            end
        | Ok (inr final_value) =>
            let! rc := on_consumer (ac_close C final_value) in
            match rc with
            | Ok tt => ret (Ok piped)
            | Err consumer_error => ret (Err (PipeConsumer consumer_error))
            end
        | Err producer_error => ret (Err (PipeProducer producer_error))
        end
    end.
  Definition a_pipe_at_most (P : a_producer SP T F PE) (C : a_consumer SC T F CE) (count : nat) := a_pipe_at_most_loop count P C 0.

  (** [bulk_pipe_at_most], lib.rs 665-705. *)
  Fixpoint a_bulk_pipe_at_most_loop (fuel : nat) (P : a_bulk_producer SP T F PE) (C : a_bulk_consumer SC T F CE) (count piped : nat)
    : fut (SP * SC) (res nat (pipe_error PE CE)) :=
    match fuel with
    | 0 => out_of_fuel
    | S fuel =>
        if piped <? count then
          let! r := on_producer (ap_expose P) in
          match r with
          | Ok (inl slots) =>
              let! room := attempt (csub count piped) in
              let max_slots := Nat.min room (length slots) in
              let! slots := attempt (slice_to max_slots slots) in
              let! rc := on_consumer (ac_bulk_consume C slots) in
              match rc with
              | Ok amount =>
                  let! r := on_producer (ap_consider P amount) in
                  match r with
                  | Ok tt => a_bulk_pipe_at_most_loop fuel P C count (piped + amount)
                  | Err producer_error => ret (Err (PipeProducer producer_error))
                  end
              | Err consumer_error => ret (Err (PipeConsumer consumer_error))
              end
          | Ok (inr final_value) =>
              let! rc := on_consumer (ac_close C final_value) in
              match rc with
              | Ok tt => ret (Ok piped)
              | Err consumer_error => ret (Err (PipeConsumer consumer_error))
              end
          | Err producer_error => ret (Err (PipeProducer producer_error))
          end
        else ret (Ok piped)
    end.
  Definition a_bulk_pipe_at_most (fuel : nat) (P : a_bulk_producer SP T F PE) (C : a_bulk_consumer SC T F CE) (count : nat) :=
    a_bulk_pipe_at_most_loop fuel P C count 0.
End Pipes.

(** ** FromSlice, FromBoxedSlice, Empty, IntoVec: [async] functions without any [.await] *)
Section Basics.
  Context {T F E : Type}.

  (** producer/from_slice.rs 157-195, producer/from_boxed_slice.rs 196-234. *)
  Definition a_from_slice : a_bulk_producer (from_slice T) T unit infallible :=
    a_bulk_producer_of (sync from_slice_produce) (sync from_slice_slurp) (sync from_slice_expose) (fun n => sync (from_slice_consider n)).

  (** producer/empty.rs 62-90. *)
  Definition a_empty : a_bulk_producer (option F) T F E :=
    a_bulk_producer_of (sync empty_produce) (sync empty_slurp) (sync empty_expose) (fun n => sync (empty_consider n)).

  (** consumer/into_vec.rs 171-207. *)
  Definition a_into_vec (default : T) : a_bulk_consumer (into_vec T) T unit infallible :=
    a_bulk_consumer_of (fun x => sync (into_vec_consume default x)) (fun f => sync (into_vec_close f)) (sync (into_vec_flush (T := T)))
      (sync (into_vec_expose default)) into_vec_write (fun n => sync (into_vec_consume_slots n)).
End Basics.

(** ** TestYielder *)

(** Polling [MaybeYield] at most [n] times, test_yielder.rs 61-71: it calls the waker before it returns [Pending]. *)
Fixpoint a_yield_polls (n : nat) : fut yielder unit :=
  match n with
  | 0 => out_of_fuel
  | S n =>
      Fut (fun y => let* (y, ready) := yielder_poll y in
                    if ready then Ret (y, Ready tt) else Ret (y, Pending true (a_yield_polls n)))
  end.

(** [TestYielder::maybe_yield], test_yielder.rs 36-39. *)
Definition a_yielder_maybe_yield : fut yielder unit := let! y := get in a_yield_polls (length (y_pattern y)).

(** producer/test_producer.rs 326-331, consumer/test_consumer.rs 340-345; applied to the field [yielder]. *)
Definition a_maybe_yield : fut (option yielder) unit :=
  let! y := get in
  match y with
  | None => ret tt
  | Some y0 => within (fun o => match o with Some y => y | None => y0 end) (fun y _ => Some y) a_yielder_maybe_yield
  end.

(** ** TestProducer *)
Section TestProducer.
  Context {T F E : Type}.
  Notation state := (test_producer_state T F E).

  Definition a_tp_maybe_yield : fut state unit :=
    within (fun s : state => tp_yielder s) (fun y s => mk_tp (tp_inner s) (tp_last s) (tp_sizes s) y) a_maybe_yield.

  (** [self.inner.method().await] *)
  Definition a_tp_inner {X} (f : fut (from_slice T) X) : fut state X := within (fun s : state => tp_inner s) (fun i s => set_inner i s) f.

  (** test_producer.rs 339-351. *)
  Definition a_test_producer_produce : fut state (res (T + F) E) :=
    let! _ := a_tp_maybe_yield in
    let! s := get in
    let! rest := attempt (from_slice_not_yet_produced (tp_inner s)) in
    match rest with
    | [] =>
        let! last := sync (fun s : state => tp_take_last s) in
        match last with Ok fin => ret (Ok (inr fin)) | Err err => ret (Err err) end
    | _ =>
        let! r := a_tp_inner (ap_produce a_from_slice) in
        let! item := attempt (unwrap_left r) in
        ret (Ok (inl item))
    end.

  (** test_producer.rs 355-366. *)
  Definition a_test_producer_slurp : fut state (res unit E) :=
    let! _ := a_tp_maybe_yield in
    let! e := sync (fun s : state => tp_check_error s) in
    match e with Some err => ret (Err err) | None => ret (Ok tt) end.

  (** test_producer.rs 370-405. *)
  Definition a_test_producer_expose : fut state (res (list T + F) E) :=
    let! _ := a_tp_maybe_yield in
    let! s := get in
    let! rest := attempt (from_slice_not_yet_produced (tp_inner s)) in
    match rest with
    | [] =>
        let! last := sync (fun s : state => tp_take_last s) in
        match last with Ok fin => ret (Ok (inr fin)) | Err err => ret (Err err) end
    | _ =>
        match tp_sizes s with
        | None =>
            let! r := a_tp_inner (ap_expose a_from_slice) in
            let! items := attempt (unwrap_left r) in
            ret (Ok (inl items))
        | Some sz =>
            let! (max_len, sz) := attempt (next_size sz) in
            let! _ := put (mk_tp (tp_inner s) (tp_last s) (Some sz) (tp_yielder s)) in
            let! r := a_tp_inner (ap_expose a_from_slice) in
            let! items := attempt (unwrap_left r) in
            let actual_len := Nat.min (length items) max_len in
            let! items := attempt (slice_to actual_len items) in
            ret (Ok (inl items))
        end
    end.

  (** test_producer.rs 407-423. *)
  Definition a_test_producer_consider (amount : nat) : fut state (res unit E) :=
    let! _ := a_tp_maybe_yield in
    let! e := sync (fun s : state => tp_check_error s) in
    match e with
    | Some err => ret (Err err)
    | None =>
        let! r := a_tp_inner (ap_consider a_from_slice amount) in
        ret (Ok tt)
    end.

  Definition a_test_producer : a_bulk_producer state T F E :=
    a_bulk_producer_of a_test_producer_produce a_test_producer_slurp a_test_producer_expose a_test_producer_consider.
End TestProducer.

(** ** TestConsumer *)
Section TestConsumer.
  Context {T F E : Type} (default : T).
  Notation state := (test_consumer_state T F E).

  Definition a_tc_maybe_yield : fut state unit :=
    within (fun s : state => tc_yielder s)
      (fun y s => mk_tc (tc_inner s) (tc_fin s) (tc_error s) (tc_left s) (tc_sizes s) y) a_maybe_yield.

  Definition tc_set_inner (i : into_vec T) (s : state) : state :=
    mk_tc i (tc_fin s) (tc_error s) (tc_left s) (tc_sizes s) (tc_yielder s).
  Definition a_tc_inner {X} (f : fut (into_vec T) X) : fut state X := within (fun s : state => tc_inner s) tc_set_inner f.

  (** [self.consumptions_until_error -= n] *)
  Definition a_tc_count (n : nat) : fut state unit :=
    sync (fun s : state => let* rem := csub (tc_left s) n in
                           Ret (mk_tc (tc_inner s) (tc_fin s) (tc_error s) rem (tc_sizes s) (tc_yielder s), tt)).

  (** test_consumer.rs 366-373. *)
  Definition a_test_consumer_consume (item : T) : fut state (res unit E) :=
    let! _ := a_tc_maybe_yield in
    let! e := sync (fun s : state => tc_check_error s) in
    match e with
    | Some err => ret (Err err)
    | None =>
        let! _ := a_tc_inner (ac_consume (a_into_vec default) item) in
        let! _ := a_tc_count 1 in
        ret (Ok tt)
    end.

  (** test_consumer.rs 375-382. *)
  Definition a_test_consumer_close (fin : F) : fut state (res unit E) :=
    let! _ := a_tc_maybe_yield in
    let! e := sync (fun s : state => tc_check_error s) in
    match e with
    | Some err => ret (Err err)
    | None =>
        let! s := get in
        let! _ := put (mk_tc (tc_inner s) (Some fin) (tc_error s) (tc_left s) (tc_sizes s) (tc_yielder s)) in
        let! _ := a_tc_inner (ac_close (a_into_vec default) tt) in
        ret (Ok tt)
    end.

  (** test_consumer.rs 386-392. *)
  Definition a_test_consumer_flush : fut state (res unit E) :=
    let! _ := a_tc_maybe_yield in
    let! e := sync (fun s : state => tc_check_error s) in
    match e with
    | Some err => ret (Err err)
    | None =>
        let! _ := a_tc_inner (ac_flush (a_into_vec default)) in
        ret (Ok tt)
    end.

  (** test_consumer.rs 399-428. *)
  Definition a_test_consumer_expose : fut state (res nat E) :=
    let! _ := a_tc_maybe_yield in
    let! e := sync (fun s : state => tc_check_error s) in
    match e with
    | Some err => ret (Err err)
    | None =>
        let! max_len := sync (fun s : state =>
          let* (max_len, sz) :=
            match tc_sizes s with
            | None => Ret (None, None)
            | Some sz => let* (n, sz) := next_size sz in Ret (Some n, Some sz)
            end in
          Ret (mk_tc (tc_inner s) (tc_fin s) (tc_error s) (tc_left s) sz (tc_yielder s), max_len)) in
        let min_len := min_opt 2048 max_len in
        let! _ := sync (fun s : state => let* i := tc_grow default (min_len + 1) min_len (tc_inner s) in Ret (tc_set_inner i s, tt)) in
        let! r := a_tc_inner (ac_expose (a_into_vec default)) in
        let! s := get in
        match r with
        | Ok slots => ret (Ok (Nat.min (min_opt slots max_len) (tc_left s)))
        | Err _ => attempt Panic
        end
    end.

  (** test_consumer.rs 430-439. *)
  Definition a_test_consumer_consume_slots (amount : nat) : fut state (res unit E) :=
    let! _ := a_tc_maybe_yield in
    let! e := sync (fun s : state => tc_check_error s) in
    match e with
    | Some err => ret (Err err)
    | None =>
        let! _ := a_tc_inner (ac_consume_slots (a_into_vec default) amount) in
        let! _ := a_tc_count amount in
        ret (Ok tt)
    end.

  Definition a_test_consumer : a_bulk_consumer state T F E :=
    a_bulk_consumer_of a_test_consumer_consume a_test_consumer_close a_test_consumer_flush a_test_consumer_expose
      (@test_consumer_write T F E) a_test_consumer_consume_slots.
End TestConsumer.

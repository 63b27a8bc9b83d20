(** What the fuzz targets accept, said without running them. *)
From Coq Require Import Bool List Arith.
From Verif Require Import Prelude QueueModel QueueSpec Traits BasicModel MergeModel FuzzModel.
Import ListNotations.
Set Implicit Arguments.

(** ** Queues *)

(** The operations that lead to a call: [BulkDequeue(0)] does not. *)
Definition fop_called (o : fop) : bool := match o with FBulkDequeue 0 => false | _ => true end.

Definition fop_call (o : fop) : qop nat :=
  match o with
  | FEnqueue x => OpEnqueue x
  | FDequeue => OpDequeue
  | FBulkEnqueue xs => OpBulkEnqueue xs
  | FBulkDequeue n => OpBulkDequeue (repeat 0 n)
  end.

(** What the target compares the answers [rs] to the operations [os] with: a list of at most [capacity] items. How many
    items a bulk operation moves is up to the queue, and [BulkEnqueue] may even exceed the capacity. *)
Fixpoint fifo_sees (capacity : nat) (stored : list nat) (os : list fop) (rs : list (qans nat)) : Prop :=
  match os, rs with
  | [], [] => True
  | FEnqueue x :: os, AItem o :: rs =>
      if length stored <? capacity then o = None /\ fifo_sees capacity (stored ++ [x]) os rs
      else o = Some x /\ fifo_sees capacity stored os rs
  | FDequeue :: os, AItem o :: rs => o = hd_error stored /\ fifo_sees capacity (tl stored) os rs
  | FBulkEnqueue xs :: os, ANat n :: rs => fifo_sees capacity (stored ++ firstn n xs) os rs
  | FBulkDequeue _ :: os, ABuf buf n :: rs =>
      n <= length buf /\ n <= length stored /\ firstn n buf = firstn n stored /\
      fifo_sees capacity (skipn n stored) os rs
  | _, _ => False
  end.

(** ** Test producers and test consumers *)

(** Two test consumers are equal if they consumed the same and both failed or both did not fail. *)
Definition same_con (a b : tcon) : Prop :=
  exists log, test_consumer_consumed a = Ret log /\ test_consumer_consumed b = Ret log /\
    tc_fin a = tc_fin b /\ tc_error a = tc_error b.

(** Two test producers are equal if they were made from the same items and both emitted their last
    value or both still have the same one. *)
Definition same_pro (a b : tpro) : Prop :=
  fs_slice (tp_inner a) = fs_slice (tp_inner b) /\ tp_last a = tp_last b.

(** ** Full slices *)

(** A correct report of [consume_full_slice] on [items], given that the error of the consumer is [err]. *)
Definition full_slice_report (items : list nat) (err : nat) (con : tcon)
    (r : res unit (consume_at_least_error nat)) : Prop :=
  tc_fin con = None /\
  match r with
  | Ok _ => tc_error con <> None /\ test_consumer_consumed con = Ret items
  | Err e => tc_error con = None /\ cale_reason e = err /\ cale_count e <= length items /\
      test_consumer_consumed con = Ret (firstn (cale_count e) items)
  end.

(** A correct report of [overwrite_full_slice] on a slice of length [len]. *)
Definition overwrite_report (items : list nat) (last : res nat nat) (len : nat) (pro : tpro) (slice : list nat)
    (r : res unit (produce_at_least_error nat nat)) : Prop :=
  match r with
  | Ok _ => tp_last pro <> None /\ len <= length items /\ slice = firstn len items
  | Err e => tp_last pro = None /\
      last = match pale_reason e with inl f => Ok f | inr e => Err e end /\
      pale_count e <= length slice /\ pale_count e <= length items /\
      firstn (pale_count e) slice = firstn (pale_count e) items
  end.

(** ** Pipes *)

(** A correct report of [pipe], where the producer has the items [items] and then [last], and the consumer fails with
    [err] if it fails. *)
Definition pipe_report (items : list nat) (last : res nat nat) (err : nat) (pro : tpro) (con : tcon)
    (r : res unit (pipe_error nat nat)) : Prop :=
  match r with
  | Ok _ => tp_last pro = None /\ test_consumer_consumed con = Ret items /\ exists f, last = Ok f /\ tc_fin con = Some f
  | Err (PipeConsumer e) =>
      e = err /\ tc_error con = None /\
      exists n, n <= length items /\ test_consumer_consumed con = Ret (firstn n items) /\
        match tp_last pro with
        | None => (exists f, last = Ok f) /\ test_producer_remaining pro = Ret (skipn n items)
        | Some _ => n < length items /\ test_producer_remaining pro = Ret (skipn (S n) items)
        end
  | Err (PipeProducer e) =>
      last = Err e /\ tp_last pro = None /\ tc_error con <> None /\
      exists n, n <= length items /\ test_consumer_consumed con = Ret (firstn n items) /\
        test_producer_remaining pro = Ret (skipn n items)
  end.

(** The same for [pipe_at_most]: fewer than [count] items were piped, as [pipe] would, or exactly [count] were and both are
    still usable. A consumer that reports success has to get the final value, unless [count] items were piped. *)
Definition pipe_at_most_report (count : nat) (items : list nat) (last : res nat nat) (err : nat) (pro : tpro) (con : tcon)
    (r : res nat (pipe_error nat nat)) : Prop :=
  match r with
  | Ok amount =>
      amount <= length items /\ test_consumer_consumed con = Ret (firstn amount items) /\
      if amount <? count
      then (tp_last pro = None \/ tc_error con = None) /\ exists f, last = Ok f /\ tc_fin con = Some f
      else tp_last pro <> None /\ tc_error con <> None
  | Err e => pipe_report items last err pro con (Err e) /\
      exists log, test_consumer_consumed con = Ret log /\ length log < count
  end.

(** ** Producers behind a scrambler *)

(** What [produce] answers, call by call. *)
Inductive answers {S T F E} (P : producer S T F E) : S -> list (res (T + F) E) -> S -> Prop :=
| answers_nil : forall s, answers P s [] s
| answers_step : forall s s' s'' r rs, p_produce P s = Ret (s', r) -> answers P s' rs s'' -> answers P s (r :: rs) s''.

(** The same for a producer that is asked until [stop] holds. *)
Inductive answers_until {S T F E} (stop : S -> bool) (P : producer S T F E) : S -> list (res (T + F) E) -> S -> Prop :=
| answers_until_stop : forall s, stop s = true -> answers_until stop P s [] s
| answers_until_step : forall s s' s'' r rs, stop s = false -> p_produce P s = Ret (s', r) ->
    answers_until stop P s' rs s'' -> answers_until stop P s (r :: rs) s''.

(** ** Bulk calls *)

(** Calls of [consume] that all succeed. *)
Inductive consumes {S T F E} (C : consumer S T F E) : list T -> S -> S -> Prop :=
| consumes_nil : forall s, consumes C [] s s
| consumes_cons : forall x xs s s' s'', c_consume C x s = Ret (s', Ok tt) -> consumes C xs s' s'' -> consumes C (x :: xs) s s''.

(** [bulk_consume] on the next items, as many at a time as [lens] says, and single calls of [consume] on what it
    reports, on two test consumers that are equal after each round. The first 0 in [lens] (there is none in the target's inputs)
    ends the comparison; a failure of [bulk_consume] has to be a failure of [consume] on the first item. *)
Inductive bulk_consume_alike (C : bulk_consumer tcon nat nat nat) : list nat -> list nat -> tcon -> tcon -> Prop :=
| bca_done : forall items lens con control, items = [] \/ hd 0 lens = 0 -> same_con con control ->
    bulk_consume_alike C items lens con control
| bca_ok : forall items len lens con control con' control' n, items <> [] -> 1 <= len ->
    c_bulk_consume C (firstn len items) con = Ret (con', Ok n) -> n <= length items ->
    consumes C (firstn n items) control control' -> same_con con' control' ->
    bulk_consume_alike C (skipn n items) lens con' control' ->
    bulk_consume_alike C items (len :: lens) con control
| bca_err : forall x items len lens con control con' control' e, 1 <= len ->
    c_bulk_consume C (firstn len (x :: items)) con = Ret (con', Err e) ->
    c_consume C x control = Ret (control', Err e) -> same_con con' control' ->
    bulk_consume_alike C (x :: items) (len :: lens) con control.

(** The same for [bulk_produce], which is always called with all of the buffer [buf] that is left; [left] items are left,
    and the comparison ends when none are. [None]: more items than there were have been produced, and the target
    only notices if it goes on. *)
Inductive bulk_produce_alike (P : bulk_producer tpro nat nat nat)
  : list nat -> option nat -> list nat -> tpro -> tpro -> Prop :=
| bpa_nil : forall left buf pro control, same_pro pro control -> bulk_produce_alike P [] left buf pro control
| bpa_done : forall len lens left buf pro control, len = 0 \/ left = 0 -> same_pro pro control ->
    bulk_produce_alike P (len :: lens) (Some left) buf pro control
| bpa_ok : forall len lens left buf pro control pro' control' buf' n, 1 <= len -> 1 <= left ->
    p_bulk_produce P buf pro = Ret (pro', (buf', Ok (inl n))) -> n <= length buf' ->
    answers P control (map (fun x => Ok (inl x)) (firstn n buf')) control' -> same_pro pro' control' ->
    bulk_produce_alike P lens (if n <=? left then Some (left - n) else None) (skipn n buf') pro' control' ->
    bulk_produce_alike P (len :: lens) (Some left) buf pro control
| bpa_end : forall len lens left buf pro control pro' control' buf' f, 1 <= len -> 1 <= left ->
    p_bulk_produce P buf pro = Ret (pro', (buf', Ok (inr f))) ->
    p_produce P control = Ret (control', Ok (inr f)) -> same_pro pro' control' ->
    bulk_produce_alike P (len :: lens) (Some left) buf pro control
| bpa_err : forall len lens left buf pro control pro' control' buf' e, 1 <= len -> 1 <= left ->
    p_bulk_produce P buf pro = Ret (pro', (buf', Err e)) ->
    p_produce P control = Ret (control', Err e) -> same_pro pro' control' ->
    bulk_produce_alike P (len :: lens) (Some left) buf pro control.

(** ** Consumers behind a scrambler *)

(** Either both accept all items and answer [close] alike, or [C] fails first, and [CS] fails with the same error on the
    same item or when it is flushed right after it. *)
Definition mostly_transparent {S} (C : consumer tcon nat nat nat) (CS : buffered_consumer S nat nat nat) (inner : S -> tcon)
    (input : list nat) (fin : nat) (control : tcon) (s : S) : Prop :=
  (exists c1 s1 c2 s2 r, consumes C input control c1 /\ consumes CS input s s1 /\
     c_close C fin c1 = Ret (c2, r) /\ c_close CS fin s1 = Ret (s2, r) /\ same_con c2 (inner s2)) \/
  (exists xs x ys c1 s1 c2 s2 e, input = xs ++ x :: ys /\ consumes C xs control c1 /\ consumes CS xs s s1 /\
     c_consume C x c1 = Ret (c2, Err e) /\
     (c_consume CS x s1 = Ret (s2, Err e) \/
      exists s', c_consume CS x s1 = Ret (s', Ok tt) /\ c_flush CS s' = Ret (s2, Err e)) /\
     same_con c2 (inner s2)).

(** What [consume] answers, call by call. *)
Inductive c_answers {S T F E} (C : consumer S T F E) : list T -> S -> list (res unit E) -> S -> Prop :=
| c_answers_nil : forall s, c_answers C [] s [] s
| c_answers_cons : forall x xs s s' s'' r rs, c_consume C x s = Ret (s', r) -> c_answers C xs s' rs s'' ->
    c_answers C (x :: xs) s (r :: rs) s''.

(** [xs] is the part of the input up to the item after which [stop] holds, or all of it. *)
Inductive consumed_until {S T F E} (stop : S -> bool) (C : consumer S T F E) : list T -> S -> list T -> S -> Prop :=
| consumed_all : forall s, consumed_until stop C [] s [] s
| consumed_stop : forall x xs s s' r, c_consume C x s = Ret (s', r) -> stop s' = true ->
    consumed_until stop C (x :: xs) s [x] s'
| consumed_step : forall x xs ys s s' s'' r, c_consume C x s = Ret (s', r) -> stop s' = false ->
    consumed_until stop C xs s' ys s'' -> consumed_until stop C (x :: xs) s (x :: ys) s''.

(** Both answer alike up to the first failure of the test consumer inside of [CS]; if there is none they answer [close] alike. The
    test consumers are equal in the end. *)
Definition transparent {S1 S2} (CS : consumer S1 nat nat nat) (CI : consumer S2 nat nat nat) (inner1 : S1 -> tcon) (inner2 : S2 -> tcon)
    (input : list nat) (fin : nat) (s1 : S1) (s2 : S2) : Prop :=
  exists xs rs t1 t2, consumed_until (fun s => test_consumer_did_error (inner1 s)) CS input s1 xs t1 /\
    c_answers CS xs s1 rs t1 /\ c_answers CI xs s2 rs t2 /\
    ((tc_error (inner1 t1) = None /\ same_con (inner1 t1) (inner2 t2)) \/
     (tc_error (inner1 t1) <> None /\ exists u1 u2 r, c_close CS fin t1 = Ret (u1, r) /\ c_close CI fin t2 = Ret (u2, r) /\
        same_con (inner1 u1) (inner2 u2))).

(** ** Merge *)

(** [produce] answers with the items [zs], tagged with where they come from, and then with [last]. *)
Inductive merged_answers {M T F E} (produce : list choice -> M -> outcome (M * list choice * option (res (T + F) E)))
  : list choice -> M -> list T -> res F E -> Prop :=
| merged_item : forall sched m sched' m' z zs last, produce sched m = Ret (m', sched', Some (Ok (inl z))) ->
    merged_answers produce sched' m' zs last -> merged_answers produce sched m (z :: zs) last
| merged_final : forall sched m sched' m' f, produce sched m = Ret (m', sched', Some (Ok (inr f))) ->
    merged_answers produce sched m [] (Ok f)
| merged_error : forall sched m sched' m' e, produce sched m = Ret (m', sched', Some (Err e)) ->
    merged_answers produce sched m [] (Err e).

(** The items with one tag. *)
Definition tagged (b : bool) (zs : list (nat * bool)) : list nat := map fst (filter (fun z => Bool.eqb (snd z) b) zs).

(** The items of both producers in their order, all of them unless an error cuts them short, and the last value of one of
    them. *)
Definition merge_report (xs ys : list nat) (l1 l2 : res nat nat) (zs : list (nat * bool)) (last : res nat nat) : Prop :=
  (last = l1 \/ last = l2) /\
  (exists xs' ys', xs = tagged true zs ++ xs' /\ ys = tagged false zs ++ ys' /\
     match last with Ok _ => xs' = [] /\ ys' = [] | Err _ => True end).

(** What asynchronous readers and writers, and the adaptors for them, should amount to. *)
From Coq Require Import Bool List Arith.
From Verif Require Import Prelude QueueModel QueueSpec Traits Contracts IoModel IoSpec AsyncModel AsyncSpec AsyncIoModel.
Import ListNotations.
Set Implicit Arguments.

(** Readers and writers whose methods run to completion. *)
Definition blocking_reader {S T} (Rd : a_reader S T) : reader S T := mk_reader (fun buf => run (ar_read Rd buf)).
Definition blocking_buf_reader {S T} (Rd : a_buf_reader S T) : buf_reader S T :=
  mk_buf_reader (blocking_reader Rd) (run (ar_fill_buf Rd)) (ar_consume Rd).
Definition blocking_writer {S T} (W : a_writer S T) : writer S T :=
  mk_writer (fun buf => run (aw_write W buf)) (run (aw_flush W)) (run (aw_close W)).

(** Readers and writers all of whose futures return [Pending] only in the way [Q]. *)
Definition reader_pending {S T} (Q : bool -> Prop) (Rd : a_reader S T) : Prop := forall buf, pending_only Q (ar_read Rd buf).
Definition buf_reader_pending {S T} (Q : bool -> Prop) (Rd : a_buf_reader S T) : Prop :=
  reader_pending Q Rd /\ pending_only Q (ar_fill_buf Rd).
Definition writer_pending {S T} (Q : bool -> Prop) (W : a_writer S T) : Prop :=
  (forall buf, pending_only Q (aw_write W buf)) /\ pending_only Q (aw_flush W) /\ pending_only Q (aw_close W).

(** [m] counts, in their states, how often they returned [Pending]. *)
Definition reader_counts {S T} (m : S -> nat) (Rd : a_reader S T) : Prop := forall buf, counts m (ar_read Rd buf).
Definition buf_reader_counts {S T} (m : S -> nat) (Rd : a_buf_reader S T) : Prop :=
  reader_counts m Rd /\ counts m (ar_fill_buf Rd) /\ (forall n s s', ar_consume Rd n s = Ret s' -> m s' = m s).
Definition writer_counts {S T} (m : S -> nat) (W : a_writer S T) : Prop :=
  (forall buf, counts m (aw_write W buf)) /\ counts m (aw_flush W) /\ counts m (aw_close W).

(** Readers that do nothing but wait before they return [Pending]: no byte is lost then. *)
Definition waiting_reader {S T} (Rd : a_reader S T) (R : S -> list T -> res unit io_error -> Prop) : Prop :=
  forall s bs l buf s', R s bs l -> In s' (suspended (ar_read Rd buf) s) -> R s' bs l.
Definition waiting_buf_reader {S T} (Rd : a_buf_reader S T) (R : S -> list T -> res unit io_error -> nat -> Prop) : Prop :=
  forall s bs l k s', R s bs l k -> (exists buf, In s' (suspended (ar_read Rd buf) s)) \/ In s' (suspended (ar_fill_buf Rd) s) ->
    exists k', R s' bs l k'.

(** A writer that keeps a record of all calls that are complete. *)
Definition a_log {S T X} (f : fut S X) (call : X -> wcall T) : fut (S * list (wcall T)) X :=
  let! r := on_fst f in
  let! _ := sync (fun '(s, log) => Ret (s, log ++ [call r], tt)) in
  ret r.
Definition a_logged {S T} (W : a_writer S T) : a_writer (S * list (wcall T)) T :=
  mk_a_writer (fun buf => a_log (aw_write W buf) (WWrite buf)) (a_log (aw_flush W) (@WFlush T)) (a_log (aw_close W) (@WClose T)).

(** The calls of the methods of a consumer. [CWrite] is not a call. *)
Definition consumer_suspended {S T F E} (C : a_bulk_consumer S T F E) (o : cop T F) (s : S) : list S :=
  match o with
  | CConsume x => suspended (ac_consume C x) s
  | CClose f => suspended (ac_close C f) s
  | CFlush => suspended (ac_flush C) s
  | CExpose => suspended (ac_expose C) s
  | CWrite _ => []
  | CConsumeSlots n => suspended (ac_consume_slots C n) s
  | CBulkConsume buf => suspended (ac_bulk_consume C buf) s
  end.

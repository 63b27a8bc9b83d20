(** Readers and writers that the adaptors of reader.rs and writer.rs must never panic on: whatever they read, whatever errors they report and
    however long they wait. All that is asked of them is that the numbers they return are not larger than the buffers they were given, and that
    they do not panic themselves; [OK] says in which states they may be used. Nothing is said about a reader or writer after an error or
    after a zero. *)
From Coq Require Import Bool List Arith.
From Verif Require Import Prelude Traits IoModel AsyncModel AsyncIoModel AsyncSpec RulesSpec SafeSpec HardySpec.
Import ListNotations.
Set Implicit Arguments.

Definition read_within {S T} (buf : list T) (OK : nat -> S -> Prop) (s : S) (x : list T * res nat io_error) : Prop :=
  length (fst x) = length buf /\ forall n, snd x = Ok n -> n <= length buf /\ (n <> 0 -> OK n s).
Definition wrote_within {S T} (buf : list T) (OK : S -> Prop) (s : S) (r : res nat io_error) : Prop :=
  forall n, r = Ok n -> n <= length buf /\ (n <> 0 -> OK s).

(** ** Asynchronous ones, whose futures may be dropped *)
Definition gentle_reader {S T} (Rd : a_reader S T) (OK : S -> Prop) : Prop :=
  forall buf s, OK s -> endures OK (read_within buf (fun _ => OK)) (ar_read Rd buf) s.

(** [OK s k]: at least [k] bytes are on display. Filling the buffer again does not take bytes off the display. *)
Record gentle_buf_reader {S T} (Rd : a_buf_reader S T) (OK : S -> nat -> Prop) : Prop := {
  gb_read : forall buf s k, OK s k -> endures (fun s => OK s 0) (read_within buf (fun n s => OK s (k - n))) (ar_read Rd buf) s;
  gb_fill : forall s k, OK s k ->
    endures (fun s => OK s 0) (fun s' r => forall ys, r = Ok ys -> k <= length ys /\ OK s' (length ys)) (ar_fill_buf Rd) s;
  gb_consume : forall s k n, OK s k -> n <= k -> safely (fun s' => OK s' (k - n)) (ar_consume Rd n s)
}.

Record gentle_writer {S T} (W : a_writer S T) (OK : S -> Prop) : Prop := {
  gw_write : forall buf s, OK s -> endures OK (wrote_within buf OK) (aw_write W buf) s;
  gw_flush : forall s, OK s -> endures OK (fun s' r => r = Ok tt -> OK s') (aw_flush W) s;
  gw_close : forall s, OK s -> endures (fun _ => True) (fun _ _ => True) (aw_close W) s
}.

(** ** The same for readers and writers whose futures are always polled until they are ready *)
Definition calm_reader {S T} (Rd : reader S T) (OK : S -> Prop) : Prop :=
  forall buf s, OK s -> safely (fun x => read_within buf (fun _ => OK) (fst x) (snd x)) (r_read Rd buf s).

Record calm_buf_reader {S T} (Rd : buf_reader S T) (OK : S -> nat -> Prop) : Prop := {
  cb_forget : forall s k, OK s k -> OK s 0;
  cb_read : forall buf s k, OK s k -> safely (fun x => read_within buf (fun n s => OK s (k - n)) (fst x) (snd x)) (r_read Rd buf s);
  cb_fill : forall s k, OK s k -> safely (fun x => forall ys, snd x = Ok ys -> k <= length ys /\ OK (fst x) (length ys)) (r_fill_buf Rd s);
  cb_consume : forall s k n, OK s k -> n <= k -> safely (fun s' => OK s' (k - n)) (r_consume Rd n s)
}.

Record calm_writer {S T} (W : writer S T) (OK : S -> Prop) : Prop := {
  cw_write : forall buf s, OK s -> safely (fun x => wrote_within buf OK (fst x) (snd x)) (w_write W buf s);
  cw_flush : forall s, OK s -> safely (fun x => snd x = Ok tt -> OK (fst x)) (w_flush W s);
  cw_close : forall s, OK s -> safely (fun _ => True) (w_close W s)
}.

(** Contracts of readers and writers, and what the adaptors must do with them. *)
From Coq Require Import Bool List Arith.
From Verif Require Import Prelude Traits Contracts AdaptorSpec BufferedSpec IoModel.
Import ListNotations.
Set Implicit Arguments.

(** ** Readers

    [R s bs last]: the bytes still to come, then either end-of-file ([Ok tt]) or an error. How many
    bytes a call to [read] delivers is left open, as long as it is at least one. Nothing is assumed
    about a reader after it reported end-of-file or an error. *)
Record lawful_reader {S T} (Rd : reader S T) (R : S -> list T -> res unit io_error -> Prop) : Prop := {
  lr_read : forall s bs l buf, R s bs l -> bs <> [] -> buf <> [] ->
    exists s' n, r_read Rd buf s = Ret (s', (firstn n bs ++ skipn n buf, Ok n)) /\
      1 <= n <= length buf /\ n <= length bs /\ R s' (skipn n bs) l;
  lr_read_eof : forall s buf, R s [] (Ok tt) -> buf <> [] ->
    exists s', r_read Rd buf s = Ret (s', (buf, Ok 0));
  lr_read_err : forall s buf e, R s [] (Err e) -> buf <> [] ->
    exists s', r_read Rd buf s = Ret (s', (buf, Err e))
}.
Arguments lr_read {S T Rd R} _ {s bs l} buf _ _ _.
Arguments lr_read_eof {S T Rd R} _ {s} buf _ _.
Arguments lr_read_err {S T Rd R} _ {s} buf {e} _ _.

(** Buffered readers: [R s bs last k], where the first [k] bytes are in the buffer. [fill_buf]
    exposes a non-empty prefix if there are bytes; at the end it reports end-of-file (and does so again
    when asked again) or the error. *)
Record lawful_buf_reader {S T} (Rd : buf_reader S T) (R : S -> list T -> res unit io_error -> nat -> Prop) : Prop := {
  lb_wf : forall s bs l k, R s bs l k -> k <= length bs;
  lb_weaken : forall s bs l k k', R s bs l k -> k' <= k -> R s bs l k';
  lb_read : forall s bs l k buf, R s bs l k -> bs <> [] -> buf <> [] ->
    exists s' n, r_read Rd buf s = Ret (s', (firstn n bs ++ skipn n buf, Ok n)) /\
      1 <= n <= length buf /\ n <= length bs /\ R s' (skipn n bs) l (k - n);
  lb_read_eof : forall s buf k, R s [] (Ok tt) k -> buf <> [] ->
    exists s', r_read Rd buf s = Ret (s', (buf, Ok 0));
  lb_read_err : forall s buf e k, R s [] (Err e) k -> buf <> [] ->
    exists s', r_read Rd buf s = Ret (s', (buf, Err e));
  lb_fill_buf : forall s bs l k, R s bs l k -> bs <> [] ->
    exists s' ys rest, r_fill_buf Rd s = Ret (s', Ok ys) /\ ys <> [] /\ bs = ys ++ rest /\
      k <= length ys /\ R s' bs l (length ys);
  lb_fill_buf_eof : forall s k, R s [] (Ok tt) k ->
    exists s', r_fill_buf Rd s = Ret (s', Ok []) /\ R s' [] (Ok tt) 0;
  lb_fill_buf_err : forall s e k, R s [] (Err e) k ->
    exists s', r_fill_buf Rd s = Ret (s', Err e);
  lb_consume : forall s bs l k n, R s bs l k -> n <= k ->
    exists s', r_consume Rd n s = Ret s' /\ R s' (skipn n bs) l (k - n)
}.
Arguments lb_wf {S T Rd R} _ {s bs l k} _.
Arguments lb_weaken {S T Rd R} _ {s bs l k} k' _ _.
Arguments lb_read {S T Rd R} _ {s bs l k} buf _ _ _.
Arguments lb_read_eof {S T Rd R} _ {s} buf {k} _ _.
Arguments lb_read_err {S T Rd R} _ {s} buf {e k} _ _.
Arguments lb_fill_buf {S T Rd R} _ {s bs l k} _ _.
Arguments lb_fill_buf_eof {S T Rd R} _ {s k} _.
Arguments lb_fill_buf_err {S T Rd R} _ {s e k} _.
Arguments lb_consume {S T Rd R} _ {s bs l k} n _ _.

(** The end is end-of-file or an error of another kind than [UnexpectedEof]. *)
Definition clean_end (l : res unit io_error) : Prop :=
  match l with Ok _ => True | Err e => kind e <> UnexpectedEof end.

(** ** Writers

    A writer may do anything, except claim to have written more than it was given. *)
Record lawful_writer {S T} (W : writer S T) : Prop := {
  lw_write : forall s buf, exists s' r, w_write W buf s = Ret (s', r) /\
    match r with Ok n => n <= length buf | Err _ => True end;
  lw_flush : forall s, exists s' r, w_flush W s = Ret (s', r);
  lw_close : forall s, exists s' r, w_close W s = Ret (s', r)
}.

(** A writer that works: it accepts at least one byte of a non-empty buffer and never fails. *)
Record working_writer {S T} (W : writer S T) : Prop := {
  ww_lawful :> lawful_writer W;
  ww_write : forall s buf, buf <> [] -> exists s' n, w_write W buf s = Ret (s', Ok n) /\ 1 <= n <= length buf;
  ww_flush : forall s, exists s', w_flush W s = Ret (s', Ok tt);
  ww_close : forall s, exists s', w_close W s = Ret (s', Ok tt)
}.

(** What a writer was asked to do, and what it answered. *)
Inductive wcall (T : Type) : Type :=
| WWrite (buf : list T) (r : res nat io_error)
| WFlush (r : res unit io_error)
| WClose (r : res unit io_error).
Arguments WWrite {T} buf r.
Arguments WFlush {T} r.
Arguments WClose {T} r.

(** The same writer, keeping a record of all calls. *)
Definition logged {S T} (W : writer S T) : writer (S * list (wcall T)) T :=
  mk_writer
    (fun buf '(s, log) => let* (s, r) := w_write W buf s in Ret (s, log ++ [WWrite buf r], r))
    (fun '(s, log) => let* (s, r) := w_flush W s in Ret (s, log ++ [WFlush r], r))
    (fun '(s, log) => let* (s, r) := w_close W s in Ret (s, log ++ [WClose r], r)).

(** The bytes that the writer accepted. *)
Definition received {T} (log : list (wcall T)) : list T :=
  flat_map (fun c => match c with WWrite buf (Ok n) => firstn n buf | _ => [] end) log.

(** A write that accepted some bytes. *)
Definition good_write {T} (c : wcall T) : Prop :=
  match c with WWrite _ (Ok n) => 1 <= n | _ => False end.

(** A call that fails with [e]. Not accepting any byte is the failure [WriteZero]. *)
Definition failed_call {T} (c : wcall T) (e : io_error) : Prop :=
  match c with
  | WWrite _ (Ok n) => n = 0 /\ kind e = WriteZero
  | WWrite _ (Err e') | WFlush (Err e') | WClose (Err e') => e = e'
  | _ => False
  end.

(** ** The writer adaptor

    Specification state: bytes queued, slots on offer, what was written into them; or: ended. *)
Inductive wabs (T : Type) : Type :=
| WActive (queued : list T) (k : nat) (w : list T)
| WEnded.
Arguments WActive {T} queued k w.
Arguments WEnded {T}.

Definition wa_permitted {T F} (b : wabs T) (o : cop T F) : Prop :=
  match b with
  | WEnded => False
  | WActive _ k w =>
      match o with
      | CWrite ys => length ys <= k
      | CConsumeSlots n => 1 <= k /\ n <= length w
      | CBulkConsume buf => buf <> []
      | _ => True
      end
  end.

(** The new bytes that a call supplies for writing, beyond those queued. *)
Definition direct {T F} (o : cop T F) : list T :=
  match o with CConsume x => [x] | CBulkConsume buf => buf | _ => [] end.

(** One call [o], its answer [r], and the [calls] made to the writer meanwhile. *)
Definition wa_answer {T F} (cap : nat) (b : wabs T) (o : cop T F) (r : cans io_error) (calls : list (wcall T))
    (b' : wabs T) : Prop :=
  match b with
  | WEnded => False
  | WActive queued k w =>
      match c_error r with
      | Some e =>
          (* the first failing call of the writer is the last one, and its error is forwarded *)
          (exists pre c, calls = pre ++ [c] /\ Forall good_write pre /\ failed_call c e) /\
          (exists rest, received calls ++ rest = queued ++ direct o) /\ b' = WEnded
      | None =>
          match o, r with
          | CConsume x, CAUnit (Ok _) =>
              Forall good_write calls /\ received calls = queued ++ [x] /\ b' = WActive [] 0 []
          | CClose _, CAUnit (Ok _) => exists ws,
              calls = ws ++ [WClose (Ok tt)] /\ Forall good_write ws /\ received ws = queued /\ b' = WEnded
          | CFlush, CAUnit (Ok _) => exists ws,
              calls = ws ++ [WFlush (Ok tt)] /\ Forall good_write ws /\ received ws = queued /\ b' = WActive [] k w
          | CExpose, CASlots (Ok n) =>
              Forall good_write calls /\ received calls = queued /\ 1 <= n <= cap /\ b' = WActive [] n []
          | CWrite ys, CANone => calls = [] /\ b' = WActive queued k (overlay ys w)
          | CConsumeSlots n, CAUnit (Ok _) =>
              calls = [] /\ length queued + n <= cap /\ b' = WActive (queued ++ firstn n w) (k - n) (skipn n w)
          | CBulkConsume buf, CANat (Ok n) =>
              Forall good_write calls /\ 1 <= n <= length buf /\ received calls = queued ++ firstn n buf /\
              b' = WActive [] 0 []
          | _, _ => False
          end
      end
  end.

(** A history with the calls made to the writer. *)
Inductive wa_run {T F} (cap : nat) : wabs T -> list (cop T F * cans io_error) -> list (wcall T) -> wabs T -> Prop :=
| wa_run_nil : forall b, wa_run cap b [] [] b
| wa_run_step : forall b o r calls b1 h calls' b2, wa_permitted b o -> wa_answer cap b o r calls b1 ->
    wa_run cap b1 h calls' b2 -> wa_run cap b ((o, r) :: h) (calls ++ calls') b2.

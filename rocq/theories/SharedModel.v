(** Model of the adaptors that share a producer or consumer behind a mutex: SharedEncoder,
    SharedRelativeEncoder, SharedDecoder, SharedCanonicDecoder, SharedRelativeDecoder and
    SharedRelativeCanonicDecoder (ufotofu_codec/src/adaptors/shared_*.rs).

    Simplifications: an [async] block that has exclusive access to an object of type [S] is a
    [prog S X]: a sequence of uninterrupted steps, with an [.await] that may return [Pending] between any two
    of them. [wb_async_utils::Mutex] is a lock that is granted to any of the waiting tasks when it is free, and
    whose guard is dropped at the end of the method or with its future. Tasks are lists of calls; a poll of
    a task is one step of it, so a schedule is a list of task numbers. A task may also cancel (drop) the future of
    its current call. *)
From Coq Require Import Bool List Arith.
From Coq.Init Require Import Byte.
From Verif Require Import Prelude Traits AdaptorSpec CodecModel.
Import ListNotations.
Set Implicit Arguments.

(** ** Programs over a locked object *)
Inductive prog (S X : Type) : Type :=
| Done (x : X)
| Step (f : S -> outcome (S * prog S X)).
Arguments Done {S X} x.
Arguments Step {S X} f.

(** Without interruptions. *)
Fixpoint run_prog {S X} (p : prog S X) (s : S) : outcome (S * X) :=
  match p with
  | Done x => Ret (s, x)
  | Step f =>
      match f s with
      | Ret (s', p') => run_prog p' s'
      | Panic => Panic
      | NoFuel => NoFuel
      end
  end.

(** Sequencing: the [.await] of a program in another one. *)
Fixpoint prog_bind {S X Y} (p : prog S X) (k : X -> prog S Y) : prog S Y :=
  match p with
  | Done x => k x
  | Step f =>
      Step (fun s => match f s with
                     | Ret (s', p') => Ret (s', prog_bind p' k)
                     | Panic => Panic
                     | NoFuel => NoFuel
                     end)
  end.

(** A function without [.await]. *)
Definition prog_call {S X} (f : S -> outcome (S * X)) : prog S X :=
  Step (fun s => let* (s', x) := f s in Ret (s', Done x)).

(** ** Tasks and their schedules *)

(** What a call does: return a value without touching the shared object, or lock it and run a program. *)
Inductive body (S X : Type) : Type :=
| Local (x : X)
| Locked (p : prog S X).
Arguments Local {S X} x.
Arguments Locked {S X} p.

Section Mutex.
  Context {S X L K : Type}.
  (** The adaptor: its own state (not shared), and for each call its new state and the body. *)
  Variable sem : L -> K -> L * body S X.

  Inductive activity : Type :=
  | Idle
  | Waiting (l : L) (c : K) (p : prog S X)
  | Running (l : L) (c : K) (p : prog S X).

  (** A task: the state of its adaptor, the calls it still makes, what it is doing, and what it has done: each
      call with the state of the adaptor at that time and the result ([None]: cancelled). *)
  Record task : Type := mk_task {
    tk_local : L;
    tk_calls : list K;
    tk_now : activity;
    tk_log : list (L * K * option X)
  }.

  (** [sy_hist] and [sy_base] are auxiliary, they have no influence: the calls that had the lock and
      gave it back, in this order, and the object as it was when the lock was most recently free. *)
  Record system : Type := mk_system {
    sy_shared : S;
    sy_holder : option nat;
    sy_tasks : list task;
    sy_hist : list (nat * (L * K * X));
    sy_base : S
  }.

  Definition task_new (lcs : L * list K) : task := mk_task (fst lcs) (snd lcs) Idle [].
  Definition system_new (s : S) (tasks : list (L * list K)) : system :=
    mk_system s None (map task_new tasks) [] s.

  Fixpoint update {A} (i : nat) (x : A) (xs : list A) : list A :=
    match i, xs with
    | _, [] => []
    | 0, _ :: xs => x :: xs
    | Datatypes.S i, y :: xs => y :: update i x xs
    end.

  Inductive event : Type := Poll (i : nat) | Drop (i : nat).

  Definition sys_step (ev : event) (y : system) : outcome system :=
    match ev with
    | Poll i =>
        match nth_error (sy_tasks y) i with
        | None => Ret y
        | Some t =>
            match tk_now t with
            | Idle =>
                match tk_calls t with
                | [] => Ret y
                | c :: cs =>
                    let l := tk_local t in
                    match sem l c with
                    | (l', Local x) =>
                        Ret (mk_system (sy_shared y) (sy_holder y)
                          (update i (mk_task l' cs Idle (tk_log t ++ [(l, c, Some x)])) (sy_tasks y))
                          (sy_hist y) (sy_base y))
                    | (l', Locked p) =>
                        Ret (mk_system (sy_shared y) (sy_holder y)
                          (update i (mk_task l' cs (Waiting l c p) (tk_log t)) (sy_tasks y))
                          (sy_hist y) (sy_base y))
                    end
                end
            | Waiting l c p =>
                match sy_holder y with
                | Some _ => Ret y
                | None =>
                    Ret (mk_system (sy_shared y) (Some i)
                      (update i (mk_task (tk_local t) (tk_calls t) (Running l c p) (tk_log t)) (sy_tasks y))
                      (sy_hist y) (sy_shared y))
                end
            | Running l c (Done x) =>
                Ret (mk_system (sy_shared y) None
                  (update i (mk_task (tk_local t) (tk_calls t) Idle (tk_log t ++ [(l, c, Some x)])) (sy_tasks y))
                  (sy_hist y ++ [(i, (l, c, x))]) (sy_shared y))
            | Running l c (Step f) =>
                let* (s', p') := f (sy_shared y) in
                Ret (mk_system s' (sy_holder y)
                  (update i (mk_task (tk_local t) (tk_calls t) (Running l c p') (tk_log t)) (sy_tasks y))
                  (sy_hist y) (sy_base y))
            end
        end
    | Drop i =>
        match nth_error (sy_tasks y) i with
        | None => Ret y
        | Some t =>
            match tk_now t with
            | Idle => Ret y
            | Waiting l c _ =>
                Ret (mk_system (sy_shared y) (sy_holder y)
                  (update i (mk_task (tk_local t) (tk_calls t) Idle (tk_log t ++ [(l, c, None)])) (sy_tasks y))
                  (sy_hist y) (sy_base y))
            | Running l c _ =>
                Ret (mk_system (sy_shared y) None
                  (update i (mk_task (tk_local t) (tk_calls t) Idle (tk_log t ++ [(l, c, None)])) (sy_tasks y))
                  (sy_hist y) (sy_base y))
            end
        end
    end.

  Fixpoint sys_run (evs : list event) (y : system) : outcome system :=
    match evs with
    | [] => Ret y
    | ev :: evs => let* y := sys_step ev y in sys_run evs y
    end.
End Mutex.
Arguments activity S X L K : clear implicits.
Arguments Idle {S X L K}.
Arguments task S X L K : clear implicits.
Arguments system S X L K : clear implicits.

(** ** Encoders *)

(** The calls of a user of a shared encoder. *)
Inductive ecall (RT V F : Type) : Type :=
| EConsume (item : V)
| EClose (fin : F)
| EFlush
| ESetRelativeTo (r : RT).
Arguments EConsume {RT V F} item.
Arguments EClose {RT V F} fin.
Arguments EFlush {RT V F}.
Arguments ESetRelativeTo {RT V F} r.

Section Encoders.
  Context {S V F E RT : Type}.

  (** [SharedRelativeEncoder], shared_relative_encoder.rs: [consume] 50-54, [close] 57-59, [flush] 68-71,
      [set_relative_to] 33-35. [encode r item] and [flush] are the programs of [relative_encode] and [flush] for the
      locked consumer. *)
  Definition shared_relative_encoder (encode : RT -> V -> prog S (res unit E)) (flush : prog S (res unit E))
      (r : RT) (c : ecall RT V F) : RT * body S (res unit E) :=
    match c with
    | EConsume item => (r, Locked (encode r item))
    | EClose _fin => (r, Local (Ok tt))
    | EFlush => (r, Locked flush)
    | ESetRelativeTo r' => (r', Local (Ok tt))
    end.

  (** [SharedEncoder], shared_encoder.rs: [consume] 43-46, [close] 49-51, [flush] 59-62. There is no reference
      value, and hence no [set_relative_to]. *)
  Definition shared_encoder (encode : V -> prog S (res unit E)) (flush : prog S (res unit E))
      (r : unit) (c : ecall infallible V F) : unit * body S (res unit E) :=
    match c with
    | EConsume item => (r, Locked (encode item))
    | EClose _fin => (r, Local (Ok tt))
    | EFlush => (r, Locked flush)
    | ESetRelativeTo r' => match r' with end
    end.
End Encoders.

(** ** Decoders *)
Inductive dcall (RT : Type) : Type :=
| DProduce
| DSlurp
| DSetRelativeTo (r : RT).
Arguments DProduce {RT}.
Arguments DSlurp {RT}.
Arguments DSetRelativeTo {RT} r.

Section Decoders.
  Context {S V F E O RT : Type}.

  (** The body of [produce]: shared_decoder.rs 45-53, 101-109, shared_relative_decoder.rs 55-65, 127-137. [expose] and [decode] are
      the programs of [expose_items] and of the decoding function for the locked producer. *)
  Definition shared_produce (expose : prog S (res (list byte + F) E)) (decode : prog S (res V (decode_error F E O)))
    : prog S (bpans V F (decode_error F E O)) :=
    prog_bind expose (fun r =>
      match r with
      | Err e => Done (BPItem (Err (decode_error_from e)))
      | Ok (inr fin) => Done (BPItem (Ok (inr fin)))
      | Ok (inl _) =>
          prog_bind decode (fun r =>
            match r with
            | Err e => Done (BPItem (Err e))
            | Ok t => Done (BPItem (Ok (inl t)))
            end)
      end).

  (** The body of [slurp]: shared_decoder.rs 61-64, 117-120, shared_relative_decoder.rs 75-78, 148-151. *)
  Definition shared_slurp (slurp : prog S (res unit E)) : prog S (bpans V F (decode_error F E O)) :=
    prog_bind slurp (fun r => Done (BPUnit (map_err decode_error_from r))).

  (** [SharedRelativeDecoder], [SharedRelativeCanonicDecoder]; [set_relative_to] is
      shared_relative_decoder.rs 37-39, 108-110. *)
  Definition shared_relative_decoder (expose : prog S (res (list byte + F) E))
      (decode : RT -> prog S (res V (decode_error F E O))) (slurp : prog S (res unit E))
      (r : RT) (c : dcall RT) : RT * body S (bpans V F (decode_error F E O)) :=
    match c with
    | DProduce => (r, Locked (shared_produce expose (decode r)))
    | DSlurp => (r, Locked (shared_slurp slurp))
    | DSetRelativeTo r' => (r', Local (BPUnit (Ok tt)))
    end.

  (** [SharedDecoder], [SharedCanonicDecoder]. *)
  Definition shared_decoder (expose : prog S (res (list byte + F) E))
      (decode : prog S (res V (decode_error F E O))) (slurp : prog S (res unit E))
      (r : unit) (c : dcall infallible) : unit * body S (bpans V F (decode_error F E O)) :=
    match c with
    | DProduce => (r, Locked (shared_produce expose decode))
    | DSlurp => (r, Locked (shared_slurp slurp))
    | DSetRelativeTo r' => match r' with end
    end.
End Decoders.

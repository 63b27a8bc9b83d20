(** What it should mean that flushing and closing a consumer leave nothing delayed. *)
From Coq Require Import Bool List Arith.
From Coq.Init Require Import Byte.
From Verif Require Import Prelude Traits QueueModel AdaptorModel ScramblerModel IoModel TowerModel CodecModel SharedModel.
Import ListNotations.
Set Implicit Arguments.

(** A consumer may delay the side effects of consuming items. [idle s]: in state [s] nothing is delayed. After [flush], nothing is
    (lib.rs 165-169); nor after [close], which "should internally trigger flushing" (lib.rs 160-163). *)
Definition flush_settles {S T F E} (C : buffered_consumer S T F E) (idle : S -> Prop) : Prop :=
  forall s s', c_flush C s = Ret (s', Ok tt) -> idle s'.
Definition close_settles {S T F E} (C : consumer S T F E) (idle : S -> Prop) : Prop :=
  forall f s s', c_close C f s = Ret (s', Ok tt) -> idle s'.
Definition settles {S T F E} (C : buffered_consumer S T F E) (idle : S -> Prop) : Prop := flush_settles C idle /\ close_settles C idle.

(** The same for writers. *)
Definition writer_settles {S T} (W : writer S T) (idle : S -> Prop) : Prop :=
  (forall s s', w_flush W s = Ret (s', Ok tt) -> idle s') /\ (forall s s', w_close W s = Ret (s', Ok tt) -> idle s').

(** Adaptors with a buffer: theirs has to be empty, too. *)
Definition cscr_idle {S T} (idle : S -> Prop) (s : cscr S T) : Prop := fx_amount (cs_buffer s) = 0 /\ idle (cs_inner s).
Definition writer_idle {S T Q} (I : queue Q T) (idle : S -> Prop) (s : writer_state S Q) : Prop :=
  q_len I (ws_queue s) = 0 /\ idle (ws_writer s).

(** Queues that expose nothing only if there is nothing in them. *)
Definition exposes_all {Q T} (I : queue Q T) : Prop := forall q q', q_expose_items I q = Ret (q', None) -> q_len I q' = 0.

(** A tower is idle if the consumer inside is. *)
Fixpoint ct_idle {F E G B S} (idle : S -> Prop) (t : ctower F E G B) : ct_state S t -> Prop :=
  match t with
  | CTBase => idle
  | CTLimit _ t => fun s => ct_idle idle t (lim_inner s)
  | CTMapFinal _ t => fun s => ct_idle idle t (wf_inner s)
  | CTInvariant t => fun s => ct_idle idle t (inv_inner s)
  end.

(** A consumer that delays as much as it can: what was consumed arrives when it is flushed or closed. *)
Record lazy (T F : Type) : Type := mk_lazy { lz_arrived : list T; lz_delayed : list T; lz_closed : option F }.
Definition lazy_idle {T F} (s : lazy T F) : Prop := lz_delayed s = [].
Definition lazy_consumer {T F E} : bulk_consumer (lazy T F) T F E :=
  let consume x s := Ret (mk_lazy (lz_arrived s) (lz_delayed s ++ [x]) (lz_closed s), Ok tt) in
  mk_bulk_consumer
    (mk_buffered_consumer
      (mk_consumer consume (fun f s => Ret (mk_lazy (lz_arrived s ++ lz_delayed s) [] (Some f), Ok tt)))
      (fun s => Ret (mk_lazy (lz_arrived s ++ lz_delayed s) [] (lz_closed s), Ok tt)))
    (fun s => Ret (s, Ok 1)) (fun ys s => mk_lazy (lz_arrived s) (lz_delayed s ++ ys) (lz_closed s)) (fun _ s => Ret (s, Ok tt))
    (fun ys s => match ys with [] => Ret (s, Ok 0) | y :: _ => let* (s, _) := consume y s in Ret (s, Ok 1) end).

(** Taking a tower of adaptors apart with [into_inner], one adaptor after the other. Paths are relative to ufotofu/src. *)
From Coq Require Import List.
From Verif Require Import Prelude Traits QueueModel AdaptorModel ScramblerModel TowerModel.
Import ListNotations.
Set Implicit Arguments.

(** [into_inner] of Limit, MapFinal, Invariant and BulkScrambler: producer/limit.rs 43-45, producer/map_final.rs 30-32,
    producer/invariant.rs 57-59, producer/bulk_scrambler.rs 83-85 and 134-136. All of them return the inner producer;
    the scrambler drops its buffer. *)
Fixpoint pt_into_inner {T F E G S} (t : ptower T F E G) : pt_state S t -> S :=
  match t return pt_state S t -> S with
  | PTBase => fun s => s
  | PTLimit _ t => fun s => pt_into_inner t (lim_inner s)
  | PTMapFinal _ t => fun s => pt_into_inner t (wf_inner s)
  | PTInvariant t => fun s => pt_into_inner t (inv_inner s)
  | PTScramble _ _ _ _ _ t => fun s => pt_into_inner t (ps_inner s)
  end.

(** consumer/limit.rs 33-35, consumer/map_final.rs 32-34, consumer/invariant.rs 53-55. *)
Fixpoint ct_into_inner {F E G B S} (t : ctower F E G B) : ct_state S t -> S :=
  match t return ct_state S t -> S with
  | CTBase => fun s => s
  | CTLimit _ t => fun s => ct_into_inner t (lim_inner s)
  | CTMapFinal _ t => fun s => ct_into_inner t (wf_inner s)
  | CTInvariant t => fun s => ct_into_inner t (inv_inner s)
  end.

(** Model of towers of asynchronous adaptors, poll by poll: those of TowerModel.v, made of the adaptors of AsyncAdaptorModel.v. *)
From Coq Require Import Bool List Arith.
From Verif Require Import Prelude Traits AdaptorModel ScramblerModel TowerModel AsyncModel AsyncAdaptorModel.
Import ListNotations.
Set Implicit Arguments.

(** [limit], [map_final], [as_invariant_producer] and [bulk_scrambled] in ufotofu/src/producer.rs, in any order. *)
Fixpoint a_pt_producer {T F E G S} (P : a_bulk_producer S T F E) (t : ptower T F E G) : a_bulk_producer (pt_state S t) T G E :=
  match t with
  | PTBase => P
  | PTLimit _ t => a_limit_producer (a_pt_producer P t)
  | PTMapFinal _ t => a_map_final_producer (a_pt_producer P t)
  | PTInvariant t => a_invariant_producer (a_pt_producer P t)
  | PTScramble dbg fuel _ _ _ t => a_pscr_producer dbg fuel (a_pt_producer P t)
  end.

(** [limit], [map_final] and [as_invariant_consumer] in ufotofu/src/consumer.rs. *)
Fixpoint a_ct_consumer {T F E G B S} (C : a_bulk_consumer S T F E) (t : ctower F E G B) : a_bulk_consumer (ct_state S t) T G B :=
  match t with
  | CTBase => C
  | CTLimit _ t => a_limit_consumer (a_ct_consumer C t)
  | CTMapFinal _ t => a_map_final_consumer (a_ct_consumer C t)
  | CTInvariant t => a_invariant_consumer (a_ct_consumer C t)
  end.

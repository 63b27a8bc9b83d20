(** Towers: any finite nesting of adaptors around a producer or a consumer. The adaptors are those of
    AdaptorModel.v and ScramblerModel.v, built by the constructors behind [limit], [map_final],
    [bulk_scrambled] and [as_invariant_producer] in ufotofu/src/producer.rs, and [limit], [map_final]
    and [as_invariant_consumer] in ufotofu/src/consumer.rs. *)
From Coq Require Import Bool List Arith.
From Verif Require Import Prelude Traits QueueModel AdaptorModel ScramblerModel.
Import ListNotations.
Set Implicit Arguments.

(** ** Producers

    [ptower T F E G]: adaptors around a producer of items [T], final values [F] and errors [E] that
    together have final values [G]. *)
Inductive ptower (T F E : Type) : Type -> Type :=
| PTBase : ptower T F E F
| PTLimit : forall G, nat -> ptower T F E G -> ptower T F E (option G)
| PTMapFinal : forall G B, (G -> B) -> ptower T F E G -> ptower T F E B
| PTInvariant : forall G, ptower T F E G -> ptower T F E G
| PTScramble : forall G, bool -> nat -> T -> list pscr_op -> nat -> ptower T F E G -> ptower T F E G.
Arguments PTBase {T F E}.
Arguments PTLimit {T F E G} n t.
Arguments PTMapFinal {T F E G B} g t.
Arguments PTInvariant {T F E G} t.
Arguments PTScramble {T F E G} dbg fuel x0 pat cap t.

Fixpoint pt_state {T F E G} (S : Type) (t : ptower T F E G) : Type :=
  match t with
  | PTBase => S
  | PTLimit _ t => limit (pt_state S t)
  | @PTMapFinal _ _ _ G B _ t => with_fun (pt_state S t) (G -> B)
  | PTInvariant t => invariant (pt_state S t)
  | @PTScramble _ _ _ G _ _ _ _ _ t => pscr (pt_state S t) T G E
  end.

Fixpoint pt_producer {T F E G S} (P : bulk_producer S T F E) (t : ptower T F E G)
  : bulk_producer (pt_state S t) T G E :=
  match t with
  | PTBase => P
  | PTLimit _ t => limit_producer (pt_producer P t)
  | PTMapFinal _ t => map_final_producer (pt_producer P t)
  | PTInvariant t => invariant_producer (pt_producer P t)
  | PTScramble dbg fuel _ _ _ t => pscr_producer dbg fuel (pt_producer P t)
  end.

Fixpoint pt_new {T F E G S} (s : S) (t : ptower T F E G) : pt_state S t :=
  match t with
  | PTBase => s
  | PTLimit n t => limit_new (pt_new s t) n
  | PTMapFinal g t => with_fun_new (pt_new s t) g
  | PTInvariant t => invariant_new (pt_new s t)
  | PTScramble _ _ x0 pat cap t => pscr_new_with_capacity x0 (pt_new s t) pat cap
  end.

(** ** Consumers

    [ctower F E G B]: adaptors around a consumer with final values [F] and errors [E] that together
    have final values [G] and errors [B]. *)
Inductive ctower (F E : Type) : Type -> Type -> Type :=
| CTBase : ctower F E F E
| CTLimit : forall G B, nat -> ctower F E G B -> ctower F E G (option B)
| CTMapFinal : forall G B H, (H -> G) -> ctower F E G B -> ctower F E H B
| CTInvariant : forall G B, ctower F E G B -> ctower F E G B.
Arguments CTBase {F E}.
Arguments CTLimit {F E G B} n t.
Arguments CTMapFinal {F E G B H} g t.
Arguments CTInvariant {F E G B} t.

Fixpoint ct_state {F E G B} (S : Type) (t : ctower F E G B) : Type :=
  match t with
  | CTBase => S
  | CTLimit _ t => limit (ct_state S t)
  | @CTMapFinal _ _ G _ H _ t => with_fun (ct_state S t) (H -> G)
  | CTInvariant t => invariant (ct_state S t)
  end.

Fixpoint ct_consumer {T F E G B S} (C : bulk_consumer S T F E) (t : ctower F E G B)
  : bulk_consumer (ct_state S t) T G B :=
  match t with
  | CTBase => C
  | CTLimit _ t => limit_consumer (ct_consumer C t)
  | CTMapFinal _ t => map_final_consumer (ct_consumer C t)
  | CTInvariant t => invariant_consumer (ct_consumer C t)
  end.

Fixpoint ct_new {F E G B S} (s : S) (t : ctower F E G B) : ct_state S t :=
  match t with
  | CTBase => s
  | CTLimit n t => limit_new (ct_new s t) n
  | CTMapFinal g t => with_fun_new (ct_new s t) g
  | CTInvariant t => invariant_new (ct_new s t)
  end.

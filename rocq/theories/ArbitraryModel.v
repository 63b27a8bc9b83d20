(** Model of the [Arbitrary] instances: ufotofu/src/producer/test_producer.rs 134-158, ufotofu/src/consumer/test_consumer.rs 139-163,
    ufotofu/src/test_yielder.rs 42-51, and the derived ones of ufotofu/src/producer/bulk_scrambler.rs 18-24,
    ufotofu/src/consumer/bulk_scrambler.rs 17-23, ufotofu/src/producer/invariant.rs 25-35,
    ufotofu/src/consumer/invariant.rs 21-31 and their variants without checks.

    Simplifications: [arbitrary::Unstructured] is the list of the bytes that are left. The instances of the standard types, which
    are part of the arbitrary crate, are parameters. Of the two values of [arbitrary::Error] it is not said which. A [NonZeroUsize] is a
    number; that it is not zero is a hypothesis of the theorems. *)
From Coq Require Import Bool List Arith NArith.
From Coq.Init Require Import Byte.
From Verif Require Import Prelude Traits BasicModel AdaptorModel PublicModel ScramblerModel.
Import ListNotations.
Set Implicit Arguments.
Open Scope nat_scope.

(** An instance of [Arbitrary]: [arbitrary] and [size_hint]. *)
Record gen (X : Type) : Type := mk_gen {
  g_arbitrary : list byte -> option (X * list byte);
  g_size_hint : nat -> nat * option nat
}.

(** [g.arbitrary(u)?] and the rest of the function. *)
Definition arbitrary_then {X Y} (g : gen X) (k : X -> list byte -> option (Y * list byte)) (u : list byte) : option (Y * list byte) :=
  match g_arbitrary g u with
  | Some (x, u) => k x u
  | None => None
  end.

(** [arbitrary::size_hint::and_all] *)
Definition hint_and (a b : nat * option nat) : nat * option nat :=
  (fst a + fst b, match snd a, snd b with Some x, Some y => Some (x + y) | _, _ => None end).
Definition and_all (hints : list (nat * option nat)) : nat * option nat := fold_left hint_and hints (0, Some 0).

Section Instances.
  Context {T F E : Type}.
  Context (g_err : gen E) (g_usize : gen nat) (g_sizes : gen (list nat)) (g_pattern : gen (list bool)).

  (** test_consumer.rs 142-162. *)
  Definition test_consumer_gen : gen (invariant (nested_tc_state T F E)) :=
    mk_gen
      (arbitrary_then g_err (fun err =>
       arbitrary_then g_usize (fun operations_until_error =>
       arbitrary_then g_sizes (fun slot_sizes =>
       arbitrary_then g_pattern (fun yield_pattern u =>
         Some (invariant_new (@nested_tc_build T F E err operations_until_error (Some slot_sizes) (Some yield_pattern)), u))))))
      (fun depth => and_all [g_size_hint g_err depth; g_size_hint g_usize depth; g_size_hint g_sizes depth; g_size_hint g_pattern depth]).

  (** test_producer.rs 137-157. *)
  Definition test_producer_gen (g_items : gen (list T)) (g_last : gen (res F E)) : gen (invariant (nested_tp_state T F E)) :=
    mk_gen
      (arbitrary_then g_items (fun items =>
       arbitrary_then g_last (fun last =>
       arbitrary_then g_sizes (fun slot_sizes =>
       arbitrary_then g_pattern (fun yield_pattern u =>
         Some (invariant_new (nested_tp_build items last (Some slot_sizes) (Some yield_pattern)), u))))))
      (fun depth => and_all [g_size_hint g_err depth; g_size_hint g_usize depth; g_size_hint g_sizes depth; g_size_hint g_pattern depth]).

  (** test_yielder.rs 43-50. *)
  Definition yielder_gen : gen yielder :=
    mk_gen (arbitrary_then g_pattern (fun pattern u => Some (yielder_new pattern, u))) (g_size_hint g_pattern).
End Instances.

(** [#[derive(Arbitrary)]] for the wrapper with checks, producer/invariant.rs 26, consumer/invariant.rs 22: the fields in order. *)
Definition invariant_arbitrary {S} (g_inner : gen S) (g_bool : gen bool) (g_usize : gen nat) : list byte -> option (invariant S * list byte) :=
  arbitrary_then g_inner (fun inner =>
  arbitrary_then g_bool (fun active =>
  arbitrary_then g_usize (fun exposed u => Some (mk_invariant inner active exposed, u)))).

(** The same for the wrapper without checks, producer/invariant_noop.rs 26, consumer/invariant_noop.rs 22. *)
Definition invariant_noop_arbitrary {S} (g_inner : gen S) : list byte -> option (S * list byte) :=
  arbitrary_then g_inner (fun inner u => Some (inner, u)).

(** The derived instances of the operations of the scramblers, producer/bulk_scrambler.rs 18-24, consumer/bulk_scrambler.rs 17-23: a number of
    32 bits, times the number of variants, shifted to the right by 32, says which variant. *)
Definition variant_of (n : N) (variants : N) : N := N.shiftr (n * variants) 32.

Definition pscr_op_arbitrary (g_u32 : gen N) (g_non_zero : gen nat) : list byte -> option (pscr_op * list byte) :=
  arbitrary_then g_u32 (fun n =>
    match variant_of n 3 with
    | 0%N => fun u => Some (ScProduce, u)
    | 1%N => arbitrary_then g_non_zero (fun amount u => Some (ScConsiderProduced amount, u))
    | _ => fun u => Some (ScSlurp, u)
    end).

Definition cscr_op_arbitrary (g_u32 : gen N) (g_non_zero : gen nat) : list byte -> option (cscr_op * list byte) :=
  arbitrary_then g_u32 (fun n =>
    match variant_of n 3 with
    | 0%N => fun u => Some (ScConsume, u)
    | 1%N => arbitrary_then g_non_zero (fun amount u => Some (ScConsumeSlots amount, u))
    | _ => fun u => Some (ScFlush, u)
    end).

(** Model of the comparisons of test objects, ufotofu/src/producer/test_producer.rs 160-168 and
    ufotofu/src/consumer/test_consumer.rs 165-174.

    Simplification: [PartialEq] of the items, of the final value and of the error is a function to [bool]. *)
From Coq Require Import Bool List Arith.
From Verif Require Import Prelude Traits BasicModel AdaptorModel PublicModel.
Import ListNotations.
Set Implicit Arguments.

(** [PartialEq] of slices, of [Option] and of [Result]. *)
Fixpoint slice_eq {X} (eq : X -> X -> bool) (xs ys : list X) : bool :=
  match xs, ys with
  | [], [] => true
  | x :: xs, y :: ys => eq x y && slice_eq eq xs ys
  | _, _ => false
  end.
Definition option_eq {X} (eq : X -> X -> bool) (a b : option X) : bool :=
  match a, b with Some x, Some y => eq x y | None, None => true | _, _ => false end.
Definition result_eq {X Y} (eq_x : X -> X -> bool) (eq_y : Y -> Y -> bool) (a b : res X Y) : bool :=
  match a, b with Ok x, Ok y => eq_x x y | Err x, Err y => eq_y x y | _, _ => false end.

Section Equality.
  Context {T F E : Type} (eq_t : T -> T -> bool) (eq_f : F -> F -> bool) (eq_e : E -> E -> bool).

  (** test_producer.rs 164-167. [inner.as_ref()] is the whole slice, from_boxed_slice.rs 164-169 and 182-186. *)
  Definition public_test_producer_eq (a b : invariant (nested_tp_state T F E)) : bool :=
    slice_eq eq_t (fs_slice (inv_inner (ntp_inner (inv_inner a)))) (fs_slice (inv_inner (ntp_inner (inv_inner b)))) &&
    option_eq (result_eq eq_f eq_e) (ntp_last (inv_inner a)) (ntp_last (inv_inner b)).

  (** test_consumer.rs 169-173. [inner.as_ref()] can panic in principle, into_vec.rs 134-138. *)
  Definition public_test_consumer_eq (a b : invariant (nested_tc_state T F E)) : outcome bool :=
    let* x := public_into_vec_as_ref (ntc_inner (inv_inner a)) in
    let* y := public_into_vec_as_ref (ntc_inner (inv_inner b)) in
    Ret (slice_eq eq_t x y &&
      option_eq eq_f (ntc_fin (inv_inner a)) (ntc_fin (inv_inner b)) &&
      option_eq eq_e (ntc_error (inv_inner a)) (ntc_error (inv_inner b))).
End Equality.

(** [into_data], test_producer.rs 80-82 and 314-316. *)
Definition public_test_producer_into_data {T F E} (s : invariant (nested_tp_state T F E)) : list T * option (res F E) :=
  (fs_slice (inv_inner (ntp_inner (inv_inner s))), ntp_last (inv_inner s)).

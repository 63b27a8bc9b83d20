(** Model of [produce] of the test producer and of adaptors when the user's [clone] runs inside it, see CloneModel.v.
    [produce] of the wrapped producer may panic; the panic leaves the adaptor in the middle of its own [produce].
    The other methods run no [clone] (other than [bulk_produce], for which see CloneModel.v). Paths are relative to ufotofu/src. *)
From Coq Require Import Bool List Arith.
From Verif Require Import Prelude Traits BasicModel AdaptorModel CloneModel.
Import ListNotations.
Set Implicit Arguments.

(** producer/test_producer.rs 339-351. *)
Definition test_producer_produce_cloning {W T F E} (clone : T -> W -> W * option T) (s : test_producer_state T F E) (w : W)
  : outcome (test_producer_state T F E * W * caught (res (T + F) E)) :=
  let* s := tp_maybe_yield s in
  let* rest := from_slice_not_yet_produced (tp_inner s) in
  match rest with
  | [] =>
      let* (s, last) := tp_take_last s in
      Ret (s, w, Done match last with Ok fin => Ok (inr fin) | Err err => Err err end)
  | _ =>
      let* (i, w, r) := from_slice_produce_cloning clone (tp_inner s) w in
      match r with
      | Unwound => Ret (set_inner i s, w, Unwound)
      | Done r =>
          let* item := unwrap_left r in
          Ret (set_inner i s, w, Done (Ok (inl item)))
      end
  end.

Section Adaptors.
  Context {W S T F E : Type} (produce : S -> W -> outcome (S * W * caught (res (T + F) E))).

  (** producer/limit.rs 54-65. The counter goes down before the inner [produce] is called. *)
  Definition limit_produce_cloning (s : limit S) (w : W) : outcome (limit S * W * caught (res (T + option F) E)) :=
    match lim_remaining s with
    | 0 => Ret (s, w, Done (Ok (inr None)))
    | Datatypes.S decremented =>
        let* (i, w, r) := produce (lim_inner s) w in
        let s := mk_limit i decremented in
        match r with
        | Unwound => Ret (s, w, Unwound)
        | Done (Err e) => Ret (s, w, Done (Err e))
        | Done (Ok (inl item)) => Ret (s, w, Done (Ok (inl item)))
        | Done (Ok (inr fin)) => Ret (s, w, Done (Ok (inr (Some fin))))
        end
    end.

  (** producer/map_final.rs 40-49. *)
  Definition map_final_produce_cloning {B} (s : with_fun S (F -> B)) (w : W)
    : outcome (with_fun S (F -> B) * W * caught (res (T + B) E)) :=
    let* (i, w, r) := produce (wf_inner s) w in
    let s := mk_with_fun i (wf_fun s) in
    match r with
    | Unwound => Ret (s, w, Unwound)
    | Done r =>
        let* (s, r) := map_final_result s r in
        Ret (s, w, Done r)
    end.

  (** producer/invariant.rs 87-102. *)
  Definition invariant_produce_cloning (s : invariant S) (w : W) : outcome (invariant S * W * caught (res (T + F) E)) :=
    inv_check s (
      let* (i, w, r) := produce (inv_inner s) w in
      match r with
      | Unwound => Ret (mk_invariant i (inv_active s) (inv_exposed s), w, Unwound)
      | Done r =>
          let active := match r with Ok (inl _) => inv_active s | _ => false end in
          Ret (mk_invariant i active (inv_exposed s), w, Done r)
      end).
End Adaptors.

(** Properties C09 and C19, exactly: what holds in the cases in which the documented contract is violated. *)
From Coq Require Import Bool List Arith Lia.
From Verif Require Import Prelude ListFacts Traits Contracts ContractFacts BasicModel BasicSpec BasicProofs Reference
  PipeSpec PipeProofs AdaptorModel AdaptorSpec AdaptorProofs ExactSpec ExactProofs.
Import ListNotations.

(** *** C09 *)

(** For every consumer, without assumptions: [bulk_consume_full_slice] succeeds iff [bulk_consume] calls, each offering
    what is not yet consumed, succeed and cover the slice. It fails iff such a call fails, with the error of that call, and
    the count is what the calls before it reported. *)
Theorem C09_bulk_consume_full_slice_calls :
  forall (S T F E : Type) (C : bulk_consumer S T F E) (buf : list T) (s s' : S)
    (r : res unit (consume_at_least_error E)),
  (exists fuel, bulk_consume_full_slice fuel C buf s = Ret (s', r)) <->
  match r with
  | Ok _ => exists n, bulk_accepts C s buf n s' /\ length buf <= n
  | Err err => exists s1, bulk_accepts C s buf (cale_count err) s1 /\ cale_count err < length buf /\
      c_bulk_consume C (skipn (cale_count err) buf) s1 = Ret (s', Err (cale_reason err))
  end.
Proof. exact @bulk_full_slice_iff. Qed.
Print Assumptions C09_bulk_consume_full_slice_calls.

(** For every contract-abiding consumer: of the [n] items that the consumer accepts before its error, [m] are reported,
    and the [n - m] others were accepted by the call that failed. So the count is exact iff that call accepted nothing. *)
Theorem C09_bulk_count_is_exactly :
  forall (S A T F E : Type) (C : bulk_consumer S T F E) (M : machine A T F E)
    (R : S -> A -> nat -> list T -> Prop) (D : S -> A -> Prop),
  lawful_consumer C M R D ->
  forall (fuel : nat) (buf : list T) (s : S) (a : A) (k : nat) (w : list T),
  R s a k w -> length buf < fuel ->
  match m_feed M buf a with
  | (a', n, Some e) => exists s1 s' m a1 k1 w1,
      bulk_consume_full_slice fuel C buf s = Ret (s', Err (mk_cale m e)) /\ D s' a' /\
      bulk_accepts C s buf m s1 /\ c_bulk_consume C (skipn m buf) s1 = Ret (s', Err e) /\ R s1 a1 k1 w1 /\
      m_feed M (firstn m buf) a = (a1, m, None) /\
      m <= n /\ m_feed M (skipn m buf) a1 = (a', n - m, Some e)
  | (a', _, None) => exists s',
      bulk_consume_full_slice fuel C buf s = Ret (s', Ok tt) /\ R s' a' 0 []
  end.
Proof. intros S A T F E C M R D L. exact (@bulk_count_exact S T F E C A M R D L). Qed.
Print Assumptions C09_bulk_count_is_exactly.

(** The consumer accepts three of the five items. It offers two slots at a time: the first call reports two, the second one
    accepts one more and fails. *)
Example C09_example_exactly :
  let C := ref_consumer (failing_machine nat unit 99) 2 in
  let a n log b := mk_tstate log (@None unit) n b in
  (exists R D, lawful_consumer C (failing_machine nat unit 99) R D /\ R (a 3 [] false, []) (a 3 [] false) 0 []) /\
  m_feed (failing_machine nat unit 99) [5; 6; 7; 8; 9] (a 3 [] false) = (a 0 [5; 6; 7] true, 3, Some 99) /\
  bulk_consume_full_slice 6 C [5; 6; 7; 8; 9] (a 3 [] false, []) = Ret ((a 0 [5; 6; 7] true, []), Err (mk_cale 2 99)).
Proof.
  split; [|split; vm_compute; reflexivity].
  exists (@ref_rel _ _), (@ref_end _ _). split; [apply ref_lawful; lia|apply ref_start].
Qed.

(** *** C19 *)

(** Every inner producer that abides by its contract, every history, including every use of [slurp]: the documented
    contract is met, except that [slurp] may report the error of an inner producer that fails right after [n] items. *)
Theorem C19_limit_conforms_exactly :
  forall (S T F E : Type) (P : bulk_producer S T F E) R D s xs l k n (ops : list (pop T)),
  lawful_producer_core P R D -> lawful_slurp P R D -> R s xs l k ->
  p_conforms_leaking (limit_producer P) (limit_leak n xs l) (fun s' => D (lim_inner s')) ops
    (limit_new s n) (PActive (firstn n xs) (limit_last n xs l) 0).
Proof. exact limit_conforms_leaking. Qed.
Print Assumptions C19_limit_conforms_exactly.

(** If nothing can leak, this is the documented contract. *)
Theorem C19_no_leak :
  forall (S T F E : Type) (P : bulk_producer S T F E) Ended ops s a,
  p_conforms_leaking P None Ended ops s a <-> p_conforms P ops s a.
Proof. exact leaking_none. Qed.
Print Assumptions C19_no_leak.

Example C19_example_exactly :
  limit_leak 1 [1] (@Err unit nat 9) = Some 9 /\ limit_leak 2 [1] (@Err unit nat 9) = None /\
  limit_leak 1 [1] (@Ok nat nat 9) = None /\
  tp_rel (test_producer_build [1] (@Err unit nat 9) None None) [1] (Err 9) 0 /\
  (let* (s, _) := limit_produce test_producer (limit_new (test_producer_build [1] (@Err unit nat 9) None None) 1) in
   let* (_, r) := limit_slurp test_producer s in Ret r) = Ret (Err 9).
Proof. splits; try (vm_compute; reflexivity). now apply tp_rel_build. Qed.

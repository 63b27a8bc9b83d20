(** C82: the [Arbitrary] instances. *)
From Coq Require Import Bool List Arith NArith Lia.
From Coq.Init Require Import Byte.
From Verif Require Import Prelude ListFacts Traits Contracts ContractFacts BasicModel BasicSpec BasicProofs
  AdaptorModel PublicModel PublicSpec PublicProofs.
From Verif Require Import ScramblerModel ArbitraryModel ArbitrarySpec ArbitraryProofs.
Import ListNotations.
Open Scope nat_scope.

(** *** The size hints *)

Theorem C82_consumer_hint : forall T F E (g_err : gen E) g_usize g_sizes g_pattern,
  hints_right g_err -> hints_right g_usize -> hints_right g_sizes -> hints_right g_pattern ->
  hints_right (@test_consumer_gen T F E g_err g_usize g_sizes g_pattern).
Proof. exact consumer_hint. Qed.
Print Assumptions C82_consumer_hint.

Theorem C82_yielder_hint : forall g_pattern, hints_right g_pattern -> hints_right (yielder_gen g_pattern).
Proof. exact yielder_hint. Qed.
Print Assumptions C82_yielder_hint.

(** The instances of the crate have right hints, so the hypotheses of the two theorems are met. *)
Theorem C82_crate_hints :
  hints_right bool_gen /\ hints_right usize_gen /\ hints_right non_zero_gen /\ hints_right unit_gen /\
  (forall X (g : gen X), hints_right g -> hints_right (box_gen g)) /\
  (forall F E (g_ok : gen F) (g_err : gen E), hints_right g_ok -> hints_right g_err -> hints_right (result_gen g_ok g_err)).
Proof.
  split; [exact bool_hint|]. split; [exact usize_hint|]. split; [exact non_zero_hint|]. split; [exact unit_hint|].
  split; [exact box_hint|exact result_hint].
Qed.
Print Assumptions C82_crate_hints.

Example C82_consumer_hint_case :
  let g := @test_consumer_gen nat unit bool bool_gen usize_gen (box_gen non_zero_gen) (box_gen bool_gen) in
  hints_right g /\ g_size_hint g 0 = (9, None) /\
  g_arbitrary g [x01; x03; x00; x00; x00; x00; x00; x00; x00; x00; x01; x01; x00; xff] =
    Some (invariant_new (nested_tc_build true 3 (Some []) (Some [true])), [xff]).
Proof.
  split; [|split; vm_compute; reflexivity].
  apply C82_consumer_hint; [exact bool_hint|exact usize_hint|apply box_hint; exact non_zero_hint|apply box_hint; exact bool_hint].
Qed.

(** The hint of [TestProducer] is the one of [TestConsumer]. It claims at least eight bytes, for the [usize] which [TestConsumer] reads and
    [TestProducer] does not: a producer of units can be made of four bytes while there are more. *)
Theorem C82_producer_hint_refuted :
  exists (g_err : gen unit) g_usize g_sizes g_pattern (g_items : gen (list unit)) (g_last : gen (res unit unit)),
    (hints_right g_err /\ hints_right g_usize /\ hints_right g_sizes /\ hints_right g_pattern /\ hints_right g_items /\ hints_right g_last) /\
    let g := test_producer_gen g_err g_usize g_sizes g_pattern g_items g_last in
    g_size_hint g 0 = (8, None) /\
    (exists s, g_arbitrary g [x00; x00; x00; x00; x01] = Some (s, [x01])) /\
    ~ hint_right (g_arbitrary g) (g_size_hint g 0).
Proof.
  exists unit_gen, usize_gen, (box_gen non_zero_gen), (box_gen bool_gen), (box_gen unit_gen), (result_gen unit_gen unit_gen).
  split.
  - split; [exact unit_hint|]. split; [exact usize_hint|]. split; [apply box_hint; exact non_zero_hint|].
    split; [apply box_hint; exact bool_hint|]. split; [apply box_hint; exact unit_hint|apply result_hint; exact unit_hint].
  - intros g. split; [reflexivity|]. split; [eexists; vm_compute; reflexivity|].
    intros H. destruct (H [x00; x00; x00; x00; x01] (invariant_new (nested_tp_build [] (Err tt) (Some []) (Some []))) [x01]) as (used & E & L & _).
    + vm_compute. reflexivity.
    + assert (8 <= length used) by (apply L; discriminate).
      apply (f_equal (@length _)) in E. rewrite app_length in E. cbn in E. lia.
Qed.
Print Assumptions C82_producer_hint_refuted.

(** The hint it should have. *)
Theorem C82_producer_right_hint :
  forall T F E (g_err : gen E) g_usize g_sizes g_pattern (g_items : gen (list T)) (g_last : gen (res F E)) depth,
  hint_right (g_arbitrary g_items) (g_size_hint g_items depth) -> hint_right (g_arbitrary g_last) (g_size_hint g_last depth) ->
  hint_right (g_arbitrary g_sizes) (g_size_hint g_sizes depth) -> hint_right (g_arbitrary g_pattern) (g_size_hint g_pattern depth) ->
  hint_right (g_arbitrary (test_producer_gen g_err g_usize g_sizes g_pattern g_items g_last))
    (and_all [g_size_hint g_items depth; g_size_hint g_last depth; g_size_hint g_sizes depth; g_size_hint g_pattern depth]).
Proof. exact producer_hint. Qed.
Print Assumptions C82_producer_right_hint.

Example C82_producer_right_hint_case :
  hint_right (g_arbitrary (test_producer_gen unit_gen usize_gen (box_gen non_zero_gen) (box_gen bool_gen) (box_gen unit_gen) (result_gen unit_gen unit_gen)))
    (1, None).
Proof.
  apply (C82_producer_right_hint _ _ _ unit_gen usize_gen (box_gen non_zero_gen) (box_gen bool_gen) (box_gen unit_gen) (result_gen unit_gen unit_gen) 0).
  - apply box_hint. exact unit_hint.
  - apply result_hint; exact unit_hint.
  - apply box_hint. exact non_zero_hint.
  - apply box_hint. exact bool_hint.
Qed.

(** *** What is generated *)

(** Whatever the bytes, a generated producer is one of the builder with positive sizes, and keeps its contract under all permitted calls,
    with and without checks. *)
Theorem C82_producer_generated :
  forall T F E (g_err : gen E) g_usize g_sizes g_pattern (g_items : gen (list T)) (g_last : gen (res F E)) u s rest,
  only_positive g_sizes ->
  g_arbitrary (test_producer_gen g_err g_usize g_sizes g_pattern g_items g_last) u = Some (s, rest) ->
  exists items last sizes pattern,
    s = invariant_new (nested_tp_build items last (Some sizes) (Some pattern)) /\
    forall checks ops, p_conforms (public_producer checks (nested_test_producer checks)) ops s (PActive items last 0).
Proof.
  intros T F E ge gu gs gp gi gl u s rest P H. destruct (generated_producer _ _ _ _ _ _ _ _ _ _ _ _ P H) as (items & last & sizes & pattern & Hs & ->).
  exists items, last, sizes, pattern. split; [reflexivity|]. intros checks ops. apply public_test_producer_conforms. exact Hs.
Qed.
Print Assumptions C82_producer_generated.

Theorem C82_consumer_generated :
  forall T F E (d : T) (g_err : gen E) g_usize g_sizes g_pattern u (s : invariant (nested_tc_state T F E)) rest,
  only_positive g_sizes ->
  g_arbitrary (test_consumer_gen g_err g_usize g_sizes g_pattern) u = Some (s, rest) ->
  exists err n sizes pattern,
    s = invariant_new (nested_tc_build err n (Some sizes) (Some pattern)) /\
    forall checks ops, c_conforms (public_consumer checks (nested_test_consumer checks d)) (failing_machine T F err) ops s
      (CActive (mk_tstate [] None n false) 0 []).
Proof.
  intros T F E d ge gu gs gp u s rest P H. destruct (generated_consumer _ _ _ _ _ _ _ _ _ _ P H) as (err & n & sizes & pattern & Hs & ->).
  exists err, n, sizes, pattern. split; [reflexivity|]. intros checks ops. apply public_test_consumer_conforms. exact Hs.
Qed.
Print Assumptions C82_consumer_generated.

(** A generated yielder is the one of the pattern that was generated. *)
Theorem C82_yielder_generated : forall g_pattern u y rest,
  g_arbitrary (yielder_gen g_pattern) u = Some (y, rest) <-> exists pattern, g_arbitrary g_pattern u = Some (pattern, rest) /\ y = yielder_new pattern.
Proof.
  intros gp u y rest. cbn. unfold arbitrary_then. destruct (g_arbitrary gp u) as [[pattern v]|]; split.
  - intros H. injection H as <- <-. eauto.
  - intros (p & H & ->). injection H as -> ->. reflexivity.
  - discriminate.
  - intros (p & H & _). discriminate.
Qed.
Print Assumptions C82_yielder_generated.
Example C82_yielder_generated_case : g_arbitrary (yielder_gen (box_gen bool_gen)) [x01; x01; x01; x00; x00; xff] = Some (yielder_new [true; false], [xff]).
Proof. reflexivity. Qed.

Theorem C82_crate_sizes : only_positive (box_gen non_zero_gen).
Proof. intros u sizes rest. apply take_elements_positive. Qed.
Print Assumptions C82_crate_sizes.

Example C82_producer_generated_case :
  g_arbitrary (test_producer_gen unit_gen usize_gen (box_gen non_zero_gen) (box_gen bool_gen) (box_gen bool_gen) (result_gen bool_gen unit_gen))
    [x01; x01; x01; x00; x00; x01; x01; x01; x02; x00; x00; x00; x00; x00; x00; x00; x00; x01; x01] =
  Some (invariant_new (nested_tp_build [true; false] (Ok true) (Some [2]) (Some [true])), []).
Proof. vm_compute. reflexivity. Qed.

(** *** Everything can be generated *)

Theorem C82_producer_every :
  forall T F E (g_err : gen E) g_usize g_sizes g_pattern (g_items : gen (list T)) (g_last : gen (res F E)) items last sizes pattern,
  generates (g_arbitrary g_items) items -> generates (g_arbitrary g_last) last ->
  generates (g_arbitrary g_sizes) sizes -> generates (g_arbitrary g_pattern) pattern ->
  generates (g_arbitrary (test_producer_gen g_err g_usize g_sizes g_pattern g_items g_last))
    (invariant_new (nested_tp_build items last (Some sizes) (Some pattern))).
Proof. exact producer_every. Qed.
Print Assumptions C82_producer_every.

Theorem C82_consumer_every :
  forall T F E (g_err : gen E) g_usize g_sizes g_pattern err n sizes pattern,
  generates (g_arbitrary g_err) err -> generates (g_arbitrary g_usize) n ->
  generates (g_arbitrary g_sizes) sizes -> generates (g_arbitrary g_pattern) pattern ->
  generates (g_arbitrary (@test_consumer_gen T F E g_err g_usize g_sizes g_pattern))
    (invariant_new (nested_tc_build err n (Some sizes) (Some pattern))).
Proof. exact consumer_every. Qed.
Print Assumptions C82_consumer_every.

(** With the instances of the crate: all yield patterns, all positive sizes and all numbers of machine words. *)
Theorem C82_crate_every :
  (forall pattern, generates (g_arbitrary (box_gen bool_gen)) pattern) /\
  (forall n, (N.of_nat n < 2 ^ 64)%N -> generates (g_arbitrary usize_gen) n) /\
  (forall sizes, Forall (fun n => (N.of_nat n < 2 ^ 64)%N /\ 1 <= n) sizes -> generates (g_arbitrary (box_gen non_zero_gen)) sizes) /\
  (forall T (g : gen T) items, hints_right g -> Forall (generates (g_arbitrary g)) items -> generates (g_arbitrary (box_gen g)) items).
Proof.
  split; [|split; [exact generates_usize|split]].
  - intros pattern. apply generates_box; [exact bool_hint|]. apply Forall_forall. intros b _. apply generates_bool.
  - intros sizes H. apply generates_box; [exact non_zero_hint|]. eapply Forall_impl; [|exact H]. intros n [H1 H2]. exact (generates_non_zero n H1 H2).
  - intros T g items. apply generates_box.
Qed.
Print Assumptions C82_crate_every.

(** The operations of the scramblers: all of them, and only those with a positive amount. *)
Theorem C82_operations_every : forall (g_u32 : gen N) (g_non_zero : gen nat),
  (forall x, (x < 2 ^ 32)%N -> generates (g_arbitrary g_u32) x) ->
  (forall op, match op with ScConsiderProduced n => generates (g_arbitrary g_non_zero) n | _ => True end ->
     generates (pscr_op_arbitrary g_u32 g_non_zero) op) /\
  (forall op, match op with ScConsumeSlots n => generates (g_arbitrary g_non_zero) n | _ => True end ->
     generates (cscr_op_arbitrary g_u32 g_non_zero) op).
Proof. intros gu gz Hu. split; intros op Ho; [now apply pscr_op_every|now apply cscr_op_every]. Qed.
Print Assumptions C82_operations_every.

Theorem C82_operations_positive : forall (g_u32 : gen N) (g_non_zero : gen nat) u n rest,
  (forall u n rest, g_arbitrary g_non_zero u = Some (n, rest) -> 1 <= n) ->
  (pscr_op_arbitrary g_u32 g_non_zero u = Some (ScConsiderProduced n, rest) -> 1 <= n) /\
  (cscr_op_arbitrary g_u32 g_non_zero u = Some (ScConsumeSlots n, rest) -> 1 <= n).
Proof. intros gu gz u n rest Hz. split; intros H; [exact (pscr_op_positive _ _ _ _ _ Hz H)|exact (cscr_op_positive _ _ _ _ _ Hz H)]. Qed.
Print Assumptions C82_operations_positive.

Example C82_operations_case :
  pscr_op_arbitrary u32_gen non_zero_gen [x00; x00; x00; x60; x05; x00; x00; x00; x00; x00; x00; x00] = Some (ScConsiderProduced 5, []) /\
  cscr_op_arbitrary u32_gen non_zero_gen [x00; x00; x00; xb0; x05] = Some (ScFlush, [x05]) /\
  (forall x, (x < 2 ^ 32)%N -> generates (g_arbitrary u32_gen) x) /\ generates (g_arbitrary non_zero_gen) 5 /\
  (forall u n rest, g_arbitrary non_zero_gen u = Some (n, rest) -> 1 <= n).
Proof.
  split; [vm_compute; reflexivity|]. split; [vm_compute; reflexivity|]. split; [exact generates_u32|].
  split; [apply generates_non_zero; [reflexivity|lia]|exact non_zero_positive].
Qed.

(** *** The derived instance of the checker *)

(** A generated checker around a fresh producer need not be a fresh checker: one of them panics at the first call, although that call is
    permitted, and another one lets a call pass that is not permitted. *)
Theorem C82_invariant_refuted :
  exists (g_inner : gen (from_slice nat)),
    (forall u s rest, g_arbitrary g_inner u = Some (s, rest) -> s = from_slice_new [1; 2; 3]) /\
    (exists u s, invariant_arbitrary g_inner bool_gen usize_gen u = Some (s, []) /\ inv_inner s = from_slice_new [1; 2; 3] /\
       p_produce (invariant_producer from_slice_producer) s = Panic /\
       (exists s', p_produce (invariant_producer from_slice_producer) (invariant_new (inv_inner s)) = Ret (s', Ok (inl 1)))) /\
    (exists u s, invariant_arbitrary g_inner bool_gen usize_gen u = Some (s, []) /\ inv_inner s = from_slice_new [1; 2; 3] /\
       p_consider (invariant_producer from_slice_producer) 2 (invariant_new (inv_inner s)) = Panic /\
       (exists s', p_consider (invariant_producer from_slice_producer) 2 s = Ret (s', Ok tt))).
Proof.
  exists (mk_gen (fun u => Some (from_slice_new [1; 2; 3], u)) (fun _ => (0, Some 0))).
  split; [|split].
  - intros u s rest H. now inversion H.
  - exists [x00], (mk_invariant (from_slice_new [1; 2; 3]) false 0).
    split; [vm_compute; reflexivity|]. split; [reflexivity|]. split; [reflexivity|]. eexists. reflexivity.
  - exists [x01; x02], (mk_invariant (from_slice_new [1; 2; 3]) true 2).
    split; [vm_compute; reflexivity|]. split; [reflexivity|]. split; [reflexivity|]. eexists. reflexivity.
Qed.
Print Assumptions C82_invariant_refuted.

(** Without checks it is what the instance of the wrapped object gives. *)
Theorem C82_invariant_noop : forall S (g_inner : gen S) u, invariant_noop_arbitrary g_inner u = g_arbitrary g_inner u.
Proof. intros S g u. unfold invariant_noop_arbitrary, arbitrary_then. now destruct (g_arbitrary g u) as [[s v]|]. Qed.
Print Assumptions C82_invariant_noop.

Example C82_invariant_noop_case : invariant_noop_arbitrary bool_gen [x01; x02] = Some (true, [x02]).
Proof. reflexivity. Qed.

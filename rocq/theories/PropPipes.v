(** Properties C08-C15: default methods and pipes.

    [lawful_producer], [lawful_consumer] are the documented contracts, see Contracts.v; [RP sp xs l k]
    says that the producer state [sp] stands for the items [xs] followed by [l], and [RC sc a k w]
    that the consumer state [sc] stands for the machine state [a]. *)
From Coq Require Import List Arith Lia.
From Verif Require Import Prelude ListFacts Traits Contracts ContractFacts PipeSpec PipeProofs BasicModel BasicSpec BasicProofs Reference.
Import ListNotations.

(** The running examples: a producer of five items that exposes one, then two, then three
    items; a consumer that accepts [n] items, in slots of two and one. *)
Definition ex_producer (last : res nat nat) : test_producer_state nat nat nat :=
  test_producer_build [10; 20; 30; 40; 50] last (Some [1; 2; 3]) (Some [true; false]).
Definition ex_consumer (n : nat) : test_consumer_state nat nat nat :=
  test_consumer_build 99 n (Some [2; 1]) None.

Lemma ex_producer_rel : forall last, tp_rel (ex_producer last) [10; 20; 30; 40; 50] last 0.
Proof. intros last. apply tp_rel_build. repeat constructor. Qed.
Lemma ex_consumer_rel : forall n, tc_rel 99 (ex_consumer n) (mk_tstate [] None n false) 0 [].
Proof. intros n. apply tc_rel_build. repeat constructor. Qed.

(** The observable outcome of a pipe run on the examples. *)
Definition observe {X} (o : outcome (test_producer_state nat nat nat * test_consumer_state nat nat nat * X)) :=
  let* (sp, sc, r) := o in
  let* rest := test_producer_remaining sp in
  let* got := test_consumer_consumed sc in
  Ret (rest, got, test_consumer_final_consumed sc, r).

(** *** C08 *)

(** No assumption on [bulk_consume] itself, which is the default one. *)
Theorem C08_default_bulk_consume :
  forall (S A T F E : Type) (C : bulk_consumer S T F E) (M : machine A T F E)
    (R : S -> A -> nat -> list T -> Prop) (D : S -> A -> Prop),
  lawful_consumer_core C M R D ->
  forall (s : S) (a : A) (k : nat) (w buf : list T),
  R s a k w -> buf <> [] ->
  (exists s' n a',
     default_bulk_consume (c_expose C) (c_write C) (c_consume_slots C) buf s = Ret (s', Ok n) /\
     1 <= n <= length buf /\ m_feed M (firstn n buf) a = (a', n, None) /\ R s' a' 0 []) \/
  (exists s' n e a',
     default_bulk_consume (c_expose C) (c_write C) (c_consume_slots C) buf s = Ret (s', Err e) /\
     m_feed M buf a = (a', n, Some e) /\ D s' a').
Proof.
  intros S A T F E C M R D L s a k w buf HR Hb.
  set (C' := mk_bulk_consumer C (c_expose C) (c_write C) (c_consume_slots C)
               (default_bulk_consume (c_expose C) (c_write C) (c_consume_slots C))).
  assert (L' : lawful_consumer_core C' M R D) by (destruct L; constructor; assumption).
  exact (@default_bulk_consume_lawful _ _ _ _ _ _ _ _ _ L' eq_refl s a k w buf HR Hb).
Qed.
Print Assumptions C08_default_bulk_consume.

Example C08_example :
  lawful_consumer_core (test_consumer 0) (failing_machine nat nat 99) (tc_rel 99) (tc_end 99) /\
  (let* (s, r) := c_bulk_consume (test_consumer 0) [7; 8; 9] (ex_consumer 3) in
   let* (s, r2) := c_bulk_consume (test_consumer 0) [9; 10] s in
   let* (s, r3) := c_bulk_consume (test_consumer 0) [10] s in
   let* got := test_consumer_consumed s in Ret (r, r2, r3, got))
  = Ret (Ok 2, Ok 1, Err 99, [7; 8; 9]).
Proof. split; [apply test_consumer_core|vm_compute; reflexivity]. Qed.

(** *** C09 *)

(** For every consumer, without assumptions. *)
Theorem C09_consume_full_slice :
  forall (S T F E : Type) (C : consumer S T F E) (buf : list T) (s s' : S)
    (r : res unit (consume_at_least_error E)),
  consume_full_slice C buf s = Ret (s', r) <->
  match r with
  | Ok _ => accepts C s buf s'
  | Err err =>
      exists xs x ys s1, buf = xs ++ x :: ys /\ cale_count err = length xs /\
        accepts C s xs s1 /\ c_consume C x s1 = Ret (s', Err (cale_reason err))
  end.
Proof.
  intros S T F E C buf s s' [[]|[n e]]; unfold consume_full_slice.
  - apply consume_full_slice_from_ok.
  - cbn [cale_count cale_reason]. exact (@consume_full_slice_from_err _ _ _ _ C buf 0 s s' n e).
Qed.
Print Assumptions C09_consume_full_slice.

Theorem C09_bulk_consume_full_slice :
  forall (S A T F E : Type) (C : bulk_consumer S T F E) (M : machine A T F E)
    (R : S -> A -> nat -> list T -> Prop) (D : S -> A -> Prop),
  lawful_consumer C M R D -> clean_bulk C M R ->
  forall (fuel : nat) (buf : list T) (s : S) (a : A) (k : nat) (w : list T),
  R s a k w -> length buf < fuel ->
  match full_slice_effect M buf a with
  | (c', r) =>
      (exists s', consume_full_slice C buf s = Ret (s', r) /\ c_rel R D s' c') /\
      (exists s', bulk_consume_full_slice fuel C buf s = Ret (s', r) /\ c_rel R D s' c')
  end.
Proof.
  intros S A T F E C M R D L CL fuel buf s a k w HR Hf.
  pose proof (@consume_full_slice_lawful _ _ _ _ _ _ _ _ _ L buf s a k w HR) as H1.
  pose proof (@bulk_consume_full_slice_lawful _ _ _ _ _ _ _ _ _ L fuel buf s a k w HR Hf) as H2.
  unfold full_slice_effect in *. destruct (m_feed M buf a) as [[a' n] [e|]].
  - split; [exact H1|]. destruct H2 as (s' & m & E1 & HD & _ & Hm). rewrite (Hm CL) in E1. exists s'. auto.
  - split; [exact H1|]. exact H2.
Qed.
Print Assumptions C09_bulk_consume_full_slice.

(** Without the assumption that errors concern the first item of a bulk call, everything but
    the count agrees, and the count is a lower bound. *)
Theorem C09_bulk_consume_full_slice_lower_bound :
  forall (S A T F E : Type) (C : bulk_consumer S T F E) (M : machine A T F E)
    (R : S -> A -> nat -> list T -> Prop) (D : S -> A -> Prop),
  lawful_consumer C M R D ->
  forall (fuel : nat) (buf : list T) (s : S) (a : A) (k : nat) (w : list T),
  R s a k w -> length buf < fuel ->
  match m_feed M buf a with
  | (a', n, Some e) => exists s' m,
      bulk_consume_full_slice fuel C buf s = Ret (s', Err (mk_cale m e)) /\ D s' a' /\ m <= n
  | (a', _, None) => exists s',
      bulk_consume_full_slice fuel C buf s = Ret (s', Ok tt) /\ R s' a' 0 []
  end.
Proof.
  intros S A T F E C M R D L fuel buf s a k w HR Hf.
  pose proof (@bulk_consume_full_slice_lawful _ _ _ _ _ _ _ _ _ L fuel buf s a k w HR Hf) as H2.
  destruct (m_feed M buf a) as [[a' n] [e|]]; [|exact H2].
  destruct H2 as (s' & m & E1 & HD & Hm & _). exists s', m. auto.
Qed.
Print Assumptions C09_bulk_consume_full_slice_lower_bound.

(** The exact count is not guaranteed by the documented contract: a contract-abiding consumer
    that accepts one item and then fails, offering two slots. One item was accepted, zero are reported. *)
Theorem C09_bulk_exact_count_refuted :
  exists (C : bulk_consumer (tstate nat unit * list nat) nat unit nat)
    (R : tstate nat unit * list nat -> tstate nat unit -> nat -> list nat -> Prop)
    (D : tstate nat unit * list nat -> tstate nat unit -> Prop) s a buf s',
  lawful_consumer C (failing_machine nat unit 99) R D /\ R s a 0 [] /\
  bulk_consume_full_slice 10 C buf s = Ret (s', Err (mk_cale 0 99)) /\
  t_log (fst s') = [5] /\
  (exists s'', consume_full_slice C buf s = Ret (s'', Err (mk_cale 1 99))).
Proof.
  exists (ref_consumer (failing_machine nat unit 99) 2), (@ref_rel _ _), (@ref_end _ _),
    (mk_tstate [] None 1 false, []), (mk_tstate [] None 1 false), [5; 6].
  eexists. split; [apply ref_lawful; lia|]. split; [apply ref_start|].
  split; [reflexivity|]. split; [reflexivity|]. eexists. reflexivity.
Qed.
Print Assumptions C09_bulk_exact_count_refuted.

Example C09_example :
  clean_bulk (test_consumer 0) (failing_machine nat nat 99) (tc_rel 99) /\
  (let* (s, r) := bulk_consume_full_slice 10 (test_consumer 0) [7; 8; 9; 10] (ex_consumer 3) in
   let* got := test_consumer_consumed s in Ret (r, got))
  = Ret (Err (mk_cale 3 99), [7; 8; 9]) /\
  (let* (s, r) := bulk_consume_full_slice 10 (test_consumer 0) [7; 8; 9; 10] (ex_consumer 5) in
   let* got := test_consumer_consumed s in Ret (r, got))
  = Ret (Ok tt, [7; 8; 9; 10]).
Proof. split; [apply test_consumer_clean|]. split; vm_compute; reflexivity. Qed.

(** *** C10 *)

(** For every producer, without assumptions. *)
Theorem C10_overwrite_full_slice :
  forall (S T F E : Type) (P : producer S T F E) (buf buf' : list T) (s s' : S)
    (r : res unit (produce_at_least_error F E)),
  overwrite_full_slice P buf s = Ret (s', (buf', r)) <->
  match r with
  | Ok _ => length buf' = length buf /\ emits P s buf' s'
  | Err err =>
      exists xs s1, length xs < length buf /\ pale_count err = length xs /\ emits P s xs s1 /\
        buf' = xs ++ skipn (length xs) buf /\
        p_produce P s1 = Ret (s', match pale_reason err with inl f => Ok (inr f) | inr e => Err e end)
  end.
Proof.
  intros S T F E P buf buf' s s' r. unfold overwrite_full_slice.
  pose proof (@overwrite_from _ _ _ _ P (length buf) [] buf s eq_refl s' buf' r) as H. cbn in H.
  rewrite H. destruct r as [[]|[n q]].
  - split; [intros (xs & H1 & H2 & ->); auto|intros [H1 H2]; exists buf'; auto].
  - reflexivity.
Qed.
Print Assumptions C10_overwrite_full_slice.

Theorem C10_bulk_overwrite_full_slice :
  forall (S T F E : Type) (P : bulk_producer S T F E)
    (R : S -> list T -> res F E -> nat -> Prop) (D : S -> Prop),
  lawful_producer P R D ->
  forall (fuel : nat) (buf : list T) (s : S) (xs : list T) (l : res F E) (k : nat),
  R s xs l k -> length buf < fuel ->
  match overwrite_effect xs l buf with
  | (p', buf', r) =>
      (exists s', overwrite_full_slice P buf s = Ret (s', (buf', r)) /\ p_rel R D s' p') /\
      (exists s', bulk_overwrite_full_slice fuel P buf s = Ret (s', (buf', r)) /\ p_rel R D s' p')
  end.
Proof.
  intros S T F E P R D L fuel buf s xs l k HR Hf.
  pose proof (@overwrite_full_slice_lawful _ _ _ _ _ _ _ L buf s xs l k HR) as H1.
  pose proof (@bulk_overwrite_full_slice_lawful _ _ _ _ _ _ _ L fuel buf s xs l k HR Hf) as H2.
  destruct (overwrite_effect xs l buf) as [[p' buf'] r]. auto.
Qed.
Print Assumptions C10_bulk_overwrite_full_slice.

Example C10_example :
  lawful_producer (@test_producer nat nat nat) tp_rel tp_end /\
  (let* (s, (buf, r)) := bulk_overwrite_full_slice 10 (@test_producer nat nat nat) [0; 0; 0; 0] (ex_producer (Err 7)) in
   let* (s, (buf2, r2)) := bulk_overwrite_full_slice 10 (@test_producer nat nat nat) [1; 2; 3; 4] s in
   Ret (buf, r, buf2, r2))
  = Ret ([10; 20; 30; 40], Ok tt, [50; 2; 3; 4], Err (mk_pale 1 (inr 7))).
Proof. split; [apply test_producer_lawful|vm_compute; reflexivity]. Qed.

(** *** C11 *)

Theorem C11_default_bulk_produce :
  forall (S T F E : Type) (P : bulk_producer S T F E)
    (R : S -> list T -> res F E -> nat -> Prop) (D : S -> Prop),
  lawful_producer_core P R D ->
  forall (s : S) (xs : list T) (l : res F E) (k : nat) (buf : list T),
  R s xs l k -> buf <> [] ->
  match xs with
  | _ :: _ => exists s' n,
      default_bulk_produce (p_expose P) (p_consider P) buf s
        = Ret (s', (firstn n xs ++ skipn n buf, Ok (inl n))) /\
      1 <= n <= length buf /\ n <= length xs /\ R s' (skipn n xs) l 0
  | [] => exists s',
      default_bulk_produce (p_expose P) (p_consider P) buf s = Ret (s', (buf, report_last l)) /\ D s'
  end.
Proof.
  intros S T F E P R D L s xs l k buf HR Hb.
  set (P' := mk_bulk_producer P (p_expose P) (p_consider P) (default_bulk_produce (p_expose P) (p_consider P))).
  assert (L' : lawful_producer_core P' R D) by (destruct L; constructor; assumption).
  exact (@default_bulk_produce_lawful _ _ _ _ _ _ _ L' eq_refl s xs l k buf HR Hb).
Qed.
Print Assumptions C11_default_bulk_produce.

Example C11_example :
  lawful_producer_core (@test_producer nat nat nat) tp_rel tp_end /\
  (let* (s, r1) := p_bulk_produce (@test_producer nat nat nat) [0; 0] (ex_producer (Ok 7)) in
   let* (s, r2) := p_bulk_produce (@test_producer nat nat nat) [0; 0; 0] s in
   let* (s, r3) := p_bulk_produce (@test_producer nat nat nat) [0; 0; 0] s in
   let* (s, r4) := p_bulk_produce (@test_producer nat nat nat) [0; 0; 0] s in
   Ret (r1, r2, r3, r4))
  = Ret (([10; 0], Ok (inl 1)), ([20; 30; 0], Ok (inl 2)), ([40; 50; 0], Ok (inl 2)), ([0; 0; 0], Ok (inr 7))).
Proof. split; [apply test_producer_core|vm_compute; reflexivity]. Qed.

(** *** C12: no assumption on producer or consumer. *)

Theorem C12_pipe :
  forall (SP SC T F PE CE : Type) (P : producer SP T F PE) (C : consumer SC T F CE)
    (sp sp' : SP) (sc sc' : SC) (r : res unit (pipe_error PE CE)),
  (exists fuel, pipe fuel P C sp sc = Ret (sp', sc', r)) <->
  (exists xs, piped P C sp sc xs sp' sc' r).
Proof.
  intros. split.
  - intros [fuel H]. exact (@pipe_sound _ _ _ _ _ _ P C fuel sp sc sp' sc' r H).
  - intros [xs H]. exists (S (length xs)). apply (pipe_complete H). lia.
Qed.
Print Assumptions C12_pipe.

Theorem C12_pipe_lawful :
  forall (SP SC A T F PE CE : Type) (P : bulk_producer SP T F PE) (C : bulk_consumer SC T F CE)
    (M : machine A T F CE) (RP : SP -> list T -> res F PE -> nat -> Prop) (DP : SP -> Prop)
    (RC : SC -> A -> nat -> list T -> Prop) (DC : SC -> A -> Prop),
  lawful_producer P RP DP -> lawful_consumer C M RC DC ->
  forall (xs : list T) (fuel : nat) (sp : SP) (l : res F PE) (k : nat) (sc : SC) (a : A) (kc : nat) (w : list T),
  RP sp xs l k -> RC sc a kc w -> length xs < fuel ->
  match pipe_effect M xs l a with
  | (p', c', r) => exists sp' sc', pipe fuel P C sp sc = Ret (sp', sc', r) /\
      p_rel RP DP sp' p' /\ c_rel RC DC sc' c'
  end.
Proof. intros. eapply pipe_lawful; eauto. Qed.
Print Assumptions C12_pipe_lawful.

Example C12_example :
  observe (pipe 10 (@test_producer nat nat nat) (test_consumer 0) (ex_producer (Ok 7)) (ex_consumer 9))
    = Ret ([], [10; 20; 30; 40; 50], Some 7, Ok tt) /\
  observe (pipe 10 (@test_producer nat nat nat) (test_consumer 0) (ex_producer (Err 8)) (ex_consumer 9))
    = Ret ([], [10; 20; 30; 40; 50], None, Err (PipeProducer 8)) /\
  observe (pipe 10 (@test_producer nat nat nat) (test_consumer 0) (ex_producer (Ok 7)) (ex_consumer 3))
    = Ret ([50], [10; 20; 30], None, Err (PipeConsumer 99)).
Proof. vm_compute. auto. Qed.

(** *** C13 *)

Theorem C13_bulk_pipe :
  forall (SP SC A T F PE CE : Type) (P : bulk_producer SP T F PE) (C : bulk_consumer SC T F CE)
    (M : machine A T F CE) (RP : SP -> list T -> res F PE -> nat -> Prop) (DP : SP -> Prop)
    (RC : SC -> A -> nat -> list T -> Prop) (DC : SC -> A -> Prop),
  lawful_producer P RP DP -> lawful_consumer C M RC DC ->
  forall (fuel : nat) (xs : list T) (sp : SP) (l : res F PE) (k : nat) (sc : SC) (a : A) (kc : nat) (w : list T),
  RP sp xs l k -> RC sc a kc w -> length xs < fuel ->
  match pipe_effect M xs l a with
  | (p', c', r) =>
      (exists sp' sc', pipe fuel P C sp sc = Ret (sp', sc', r) /\
         p_rel RP DP sp' p' /\ c_rel RC DC sc' c') /\
      (exists sp' sc' p'', bulk_pipe fuel P C sp sc = Ret (sp', sc', r) /\
         p_rel RP DP sp' p'' /\ lags xs l r p' p'' /\ c_rel RC DC sc' c')
  end.
Proof.
  intros SP SC A T F PE CE P C M RP DP RC DC LP LC fuel xs sp l k sc a kc w HP HC Hf.
  pose proof (@pipe_lawful _ _ _ _ _ _ _ _ _ _ _ _ _ _ LP LC xs fuel sp l k sc a kc w HP HC Hf) as H1. pose proof (@bulk_pipe_lawful _ _ _ _ _ _ _ _ _ _ _ _ _ _ LP LC fuel xs sp l k sc a kc w HP HC Hf) as H2.
  destruct (pipe_effect M xs l a) as [[p' c'] r]. auto.
Qed.
Print Assumptions C13_bulk_pipe.

(** If the consumer accepts what it offers slots for, exactly the items that were not
    accepted stay in the producer. *)
Theorem C13_bulk_pipe_keeps_the_rest :
  forall (SP SC A T F PE CE : Type) (P : bulk_producer SP T F PE) (C : bulk_consumer SC T F CE)
    (M : machine A T F CE) (RP : SP -> list T -> res F PE -> nat -> Prop) (DP : SP -> Prop)
    (RC : SC -> A -> nat -> list T -> Prop) (DC : SC -> A -> Prop),
  lawful_producer P RP DP -> lawful_consumer C M RC DC -> clean_bulk C M RC ->
  forall (fuel : nat) (xs : list T) (sp : SP) (l : res F PE) (k : nat) (sc : SC) (a : A) (kc : nat) (w : list T)
    (a' : A) (n : nat) (e : CE),
  RP sp xs l k -> RC sc a kc w -> length xs < fuel ->
  m_feed M xs a = (a', n, Some e) ->
  exists sp' sc', bulk_pipe fuel P C sp sc = Ret (sp', sc', Err (PipeConsumer e)) /\
    RP sp' (skipn n xs) l 0 /\ DC sc' a'.
Proof.
  intros SP SC A T F PE CE P C M RP DP RC DC LP LC CL fuel xs sp l k sc a kc w a' n e HP HC Hf HM.
  exact (@bulk_pipe_clean _ _ _ _ _ _ _ _ _ _ _ _ _ _ LP LC fuel xs sp l k sc a kc w a' n e CL HP HC Hf HM).
Qed.
Print Assumptions C13_bulk_pipe_keeps_the_rest.

Example C13_example :
  observe (bulk_pipe 10 (@test_producer nat nat nat) (test_consumer 0) (ex_producer (Ok 7)) (ex_consumer 9))
    = Ret ([], [10; 20; 30; 40; 50], Some 7, Ok tt) /\
  observe (bulk_pipe 10 (@test_producer nat nat nat) (test_consumer 0) (ex_producer (Err 8)) (ex_consumer 9))
    = Ret ([], [10; 20; 30; 40; 50], None, Err (PipeProducer 8)) /\
  observe (bulk_pipe 10 (@test_producer nat nat nat) (test_consumer 0) (ex_producer (Ok 7)) (ex_consumer 3))
    = Ret ([40; 50], [10; 20; 30], None, Err (PipeConsumer 99)).
Proof. vm_compute. auto. Qed.

(** *** C14: no assumption on producer or consumer. *)

Theorem C14_pipe_at_most :
  forall (SP SC T F PE CE : Type) (P : producer SP T F PE) (C : consumer SC T F CE) (count : nat)
    (sp sp' : SP) (sc sc' : SC) (r : res nat (pipe_error PE CE)),
  pipe_at_most P C count sp sc = Ret (sp', sc', r) <->
  (exists xs, piped_at_most P C count sp sc xs sp' sc' r).
Proof. intros. apply pipe_at_most_iff. Qed.
Print Assumptions C14_pipe_at_most.

Theorem C14_pipe_at_most_success :
  forall (SP SC T F PE CE : Type) (P : producer SP T F PE) (C : consumer SC T F CE) (count n : nat)
    (sp sp' : SP) (sc sc' : SC),
  pipe_at_most P C count sp sc = Ret (sp', sc', Ok n) <->
  (exists xs, length xs = n /\
     ((n = count /\ emits P sp xs sp' /\ accepts C sc xs sc') \/
      (n < count /\ exists sp1 sc1 f, emits P sp xs sp1 /\ accepts C sc xs sc1 /\
         p_produce P sp1 = Ret (sp', Ok (inr f)) /\ c_close C f sc1 = Ret (sc', Ok tt)))).
Proof.
  intros. rewrite pipe_at_most_iff. split.
  - intros [xs H]. exists xs. inversion H as [ys sp1 sc1 H1 H2 H3|ys sp1 sc1 r H1 H2]; subst.
    + auto.
    + inversion H2; subst; cbn in *; try discriminate.
      match goal with H : c_close _ _ _ = Ret (_, ?r) |- _ => destruct r as [[]|]; cbn in *; [|discriminate] end.
      match goal with H : Ok _ = Ok _ |- _ => injection H as <- end.
      split; auto. right. split; auto. do 3 eexists. eauto.
  - intros (xs & Hl & [(-> & H1 & H2)|(Hn & sp1 & sc1 & f & H1 & H2 & H3 & H4)]); exists xs.
    + now constructor.
    + subst n. apply (@piped_at_most_short _ _ _ _ _ _ P C count sp sc xs sp' sc' (Ok tt) Hn).
      exact (piped_final H1 H2 H3 H4).
Qed.
Print Assumptions C14_pipe_at_most_success.

Example C14_example :
  observe (pipe_at_most (@test_producer nat nat nat) (test_consumer 0) 0 (ex_producer (Ok 7)) (ex_consumer 9))
    = Ret ([10; 20; 30; 40; 50], [], None, Ok 0) /\
  observe (pipe_at_most (@test_producer nat nat nat) (test_consumer 0) 4 (ex_producer (Ok 7)) (ex_consumer 9))
    = Ret ([50], [10; 20; 30; 40], None, Ok 4) /\
  observe (pipe_at_most (@test_producer nat nat nat) (test_consumer 0) 5 (ex_producer (Ok 7)) (ex_consumer 9))
    = Ret ([], [10; 20; 30; 40; 50], None, Ok 5) /\
  observe (pipe_at_most (@test_producer nat nat nat) (test_consumer 0) 6 (ex_producer (Ok 7)) (ex_consumer 9))
    = Ret ([], [10; 20; 30; 40; 50], Some 7, Ok 5).
Proof. vm_compute. auto. Qed.

(** *** C15 *)

Theorem C15_bulk_pipe_at_most :
  forall (SP SC A T F PE CE : Type) (P : bulk_producer SP T F PE) (C : bulk_consumer SC T F CE)
    (M : machine A T F CE) (RP : SP -> list T -> res F PE -> nat -> Prop) (DP : SP -> Prop)
    (RC : SC -> A -> nat -> list T -> Prop) (DC : SC -> A -> Prop),
  lawful_producer P RP DP -> lawful_consumer C M RC DC ->
  forall (fuel count : nat) (xs : list T) (sp : SP) (l : res F PE) (k : nat) (sc : SC) (a : A) (kc : nat) (w : list T),
  RP sp xs l k -> RC sc a kc w -> count < fuel ->
  match pipe_at_most_effect M count xs l a with
  | (p', c', r) =>
      (exists sp' sc', pipe_at_most P C count sp sc = Ret (sp', sc', r) /\
         p_rel RP DP sp' p' /\ c_rel RC DC sc' c') /\
      (exists sp' sc' p'', bulk_pipe_at_most fuel P C count sp sc = Ret (sp', sc', r) /\
         p_rel RP DP sp' p'' /\ lags xs l r p' p'' /\ c_rel RC DC sc' c')
  end.
Proof.
  intros SP SC A T F PE CE P C M RP DP RC DC LP LC fuel count xs sp l k sc a kc w HP HC Hf.
  pose proof (@pipe_at_most_lawful _ _ _ _ _ _ _ _ _ _ _ _ _ _ LP LC count sp xs l k sc a kc w HP HC) as H1.
  pose proof (@bulk_pipe_at_most_lawful _ _ _ _ _ _ _ _ _ _ _ _ _ _ LP LC fuel count xs sp l k sc a kc w HP HC Hf) as H2.
  destruct (pipe_at_most_effect M count xs l a) as [[p' c'] r]. auto.
Qed.
Print Assumptions C15_bulk_pipe_at_most.

Theorem C15_bulk_pipe_at_most_keeps_the_rest :
  forall (SP SC A T F PE CE : Type) (P : bulk_producer SP T F PE) (C : bulk_consumer SC T F CE)
    (M : machine A T F CE) (RP : SP -> list T -> res F PE -> nat -> Prop) (DP : SP -> Prop)
    (RC : SC -> A -> nat -> list T -> Prop) (DC : SC -> A -> Prop),
  lawful_producer P RP DP -> lawful_consumer C M RC DC -> clean_bulk C M RC ->
  forall (fuel count : nat) (xs : list T) (sp : SP) (l : res F PE) (k : nat) (sc : SC) (a : A) (kc : nat) (w : list T)
    (a' : A) (n : nat) (e : CE),
  RP sp xs l k -> RC sc a kc w -> count < fuel ->
  m_feed M (firstn count xs) a = (a', n, Some e) ->
  exists sp' sc', bulk_pipe_at_most fuel P C count sp sc = Ret (sp', sc', Err (PipeConsumer e)) /\
    RP sp' (skipn n xs) l 0 /\ DC sc' a'.
Proof.
  intros SP SC A T F PE CE P C M RP DP RC DC LP LC CL fuel count xs sp l k sc a kc w a' n e HP HC Hf HM.
  eapply bulk_pipe_at_most_clean; eauto.
Qed.
Print Assumptions C15_bulk_pipe_at_most_keeps_the_rest.

Example C15_example :
  observe (bulk_pipe_at_most 9 (@test_producer nat nat nat) (test_consumer 0) 4 (ex_producer (Ok 7)) (ex_consumer 9))
    = Ret ([50], [10; 20; 30; 40], None, Ok 4) /\
  observe (bulk_pipe_at_most 9 (@test_producer nat nat nat) (test_consumer 0) 6 (ex_producer (Ok 7)) (ex_consumer 9))
    = Ret ([], [10; 20; 30; 40; 50], Some 7, Ok 5) /\
  observe (bulk_pipe_at_most 9 (@test_producer nat nat nat) (test_consumer 0) 4 (ex_producer (Ok 7)) (ex_consumer 3))
    = Ret ([40; 50], [10; 20; 30], None, Err (PipeConsumer 99)).
Proof. vm_compute. auto. Qed.

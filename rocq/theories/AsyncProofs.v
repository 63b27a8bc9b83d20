(** Proofs about futures. *)
From Coq Require Import Bool List Arith Lia.
From Coq.Init Require Import Byte.
From Verif Require Import Prelude ListFacts QueueModel Traits BasicModel AdaptorModel ScramblerModel CodecModel EndianModel SliceModel
  AsyncModel AsyncAdaptorModel AsyncSpec.
Import ListNotations.
Set Implicit Arguments.

(** ** Running *)
Lemma run_poll : forall S X (f : fut S X) s,
  run f s = match poll f s with Ret (s', Ready x) => Ret (s', x) | Ret (s', Pending _ f') => run f' s' | Panic => Panic | NoFuel => NoFuel end.
Proof. intros S X [p] s. reflexivity. Qed.

Lemma run_await : forall S X Y (f : fut S X) (k : X -> fut S Y) s,
  run (await f k) s = let* (s', x) := run f s in run (k x) s'.
Proof.
  intros S X Y. fix IH 1. intros [p] k s. cbn.
  destruct (p s) as [[s' [x|w f']]| |]; cbn; try reflexivity.
  - destruct (k x) as [q]. reflexivity.
  - apply IH.
Qed.

Lemma run_sync : forall S X (g : S -> outcome (S * X)) s, run (sync g) s = g s.
Proof. intros. cbn. destruct (g s) as [[s' x]| |]; reflexivity. Qed.
Lemma run_ret : forall S X (x : X) (s : S), run (ret x) s = Ret (s, x).
Proof. reflexivity. Qed.
Lemma run_get : forall S (s : S), run get s = Ret (s, s).
Proof. reflexivity. Qed.
Lemma run_put : forall S (s0 s : S), run (put s0) s = Ret (s0, tt).
Proof. reflexivity. Qed.
Lemma run_attempt : forall S X (o : outcome X) (s : S), run (attempt o) s = let* x := o in Ret (s, x).
Proof. intros S X [x| |] s; reflexivity. Qed.
Lemma run_out_of_fuel : forall S X (s : S), run (@out_of_fuel S X) s = NoFuel.
Proof. reflexivity. Qed.

Lemma run_within : forall S I X (field : S -> I) (set : I -> S -> S),
  (forall i s, field (set i s) = i) -> (forall i j s, set i (set j s) = set i s) ->
  forall (f : fut I X) s, run (within field set f) s = let* (i, x) := run f (field s) in Ret (set i s, x).
Proof.
  intros S I X field set H1 H2. fix IH 1. intros [p] s. cbn.
  destruct (p (field s)) as [[i [x|w f']]| |]; cbn; try reflexivity.
  rewrite IH, H1. destruct (run f' i) as [[j x]| |]; cbn; try reflexivity. now rewrite H2.
Qed.

Lemma run_on_fst : forall A B X (f : fut A X) a (b : B), run (on_fst f) (a, b) = let* (a, x) := run f a in Ret (a, b, x).
Proof. intros. unfold on_fst. now rewrite run_within. Qed.
Lemma run_on_snd : forall A B X (f : fut B X) (a : A) b, run (on_snd f) (a, b) = let* (b, x) := run f b in Ret (a, b, x).
Proof. intros. unfold on_snd. now rewrite run_within. Qed.

(** ** Executors *)
Lemma polls_run : forall S X n (f : fut S X) s,
  match polls n f s with
  | Ret (s', Ready x) => run f s = Ret (s', x)
  | Ret (s', Pending _ f') => run f s = run f' s'
  | Panic => run f s = Panic
  | NoFuel => run f s = NoFuel
  end.
Proof.
  intros S X. induction n as [|n IH]; intros f s; [reflexivity|]. cbn [polls]. rewrite run_poll.
  destruct (poll f s) as [[s' [x|w f']]| |]; try reflexivity. apply IH.
Qed.

Lemma polls_enough : forall S X (f : fut S X) s, exists n, forall m, n <= m ->
  match polls m f s with Ret (_, Pending _ _) => False | _ => True end.
Proof.
  intros S X. fix IH 1. intros [p] s. destruct (p s) as [[s' [x|w f']]| |] eqn:E1.
  - exists 1. intros [|m] H; [lia|]. cbn. now rewrite E1.
  - destruct (IH f' s') as [n Hn]. exists (Datatypes.S n). intros [|m] H; [lia|]. cbn. rewrite E1. apply Hn. lia.
  - exists 1. intros [|m] H; [lia|]. cbn. now rewrite E1.
  - exists 1. intros [|m] H; [lia|]. cbn. now rewrite E1.
Qed.

Lemma polls_pendings : forall S X (f : fut S X) s m,
  match polls m f s with Ret (_, Pending _ _) => m <= pendings f s | _ => pendings f s < m end.
Proof.
  intros S X. fix IH 1. intros [p] s [|m]; [apply Nat.le_0_l|]. cbn. destruct (p s) as [[s' [x|w f']]| |] eqn:E1; try apply Nat.lt_0_succ.
  specialize (IH f' s' m). destruct (polls m f' s') as [[s2 [x|w2 f2]]| |]; lia.
Qed.

Lemma block_on_run : forall S X (f : fut S X) s, pending_only (eq true) f ->
  forall n, pendings f s < n -> block_on n f s = run f s.
Proof.
  intros S X. fix IH 1. intros [p] s H [|n] Hn; [lia|]. cbn in *. specialize (H s).
  destruct (p s) as [[s' [x|w f']]| |] eqn:E1; try reflexivity. destruct H as [<- H]. apply IH; [exact H|lia].
Qed.

(** ** Pending *)
Section PendingOnly.
  Variable Q : bool -> Prop.

  Lemma po_poll : forall S X (f : fut S X), pending_only Q f ->
    forall s, match poll f s with Ret (_, Pending w f') => Q w /\ pending_only Q f' | _ => True end.
  Proof. intros S X [p] H s. exact (H s). Qed.

  Lemma po_await : forall S X Y (f : fut S X) (k : X -> fut S Y),
    pending_only Q f -> (forall x, pending_only Q (k x)) -> pending_only Q (await f k).
  Proof.
    intros S X Y. fix IH 1. intros [p] k H Hk. cbn in *. intros s. specialize (H s).
    destruct (p s) as [[s' [x|w f']]| |] eqn:E1; auto.
    - apply po_poll. apply Hk.
    - destruct H as [H1 H2]. split; [exact H1|]. apply IH; assumption.
  Qed.

  Lemma po_sync : forall S X (g : S -> outcome (S * X)), pending_only Q (sync g).
  Proof. intros S X g s. cbn. destruct (g s) as [[s' x]| |]; exact I. Qed.

  Lemma po_within : forall S I X (field : S -> I) (set : I -> S -> S) (f : fut I X), pending_only Q f -> pending_only Q (within field set f).
  Proof.
    intros S I X field set. fix IH 1. intros [p] H. cbn in *. intros s. specialize (H (field s)).
    destruct (p (field s)) as [[i [x|w f']]| |] eqn:E1; auto. destruct H as [H1 H2]. split; [exact H1|]. now apply IH.
  Qed.
End PendingOnly.

(** ** Every future does what the function does that runs to completion *)
Ltac rstep := first
  [ rewrite run_await | rewrite run_ret | rewrite run_get | rewrite run_put | rewrite run_attempt | rewrite run_on_fst | rewrite run_on_snd
  | rewrite run_within by (intros; reflexivity) | rewrite run_sync | rewrite run_out_of_fuel ].
Ltac rdes := match goal with
  | |- context [bind ?o _] => lazymatch o with
                              | Ret _ => fail
                              | bind _ _ => fail
                              | _ => destruct o as [?z| |] eqn:?; cbn [bind]
                              end
  end.
Ltac rmatch := match goal with
  | |- context [match ?x with _ => _ end] => lazymatch type of x with
      | res _ _ => destruct x
      | sum _ _ => destruct x
      | unit => destruct x
      | prod _ _ => destruct x
      | option _ => destruct x eqn:?
      | list _ => destruct x eqn:?
      | bool => destruct x eqn:?
      | pscr_op => destruct x
      | cscr_op => destruct x
      end
  end.
Ltac rgo := repeat first [progress cbn [bind] | reflexivity | rstep | rmatch | rdes].

Section RunDefaults.
  Context {S T F E : Type}.

  Lemma run_bulk_produce : forall (expose : fut S (res (list T + F) E)) consider buf s,
    run (a_bulk_produce expose consider buf) s = default_bulk_produce (run expose) (fun n => run (consider n)) buf s.
  Proof. intros. unfold a_bulk_produce, default_bulk_produce. rgo. Qed.

  Lemma run_bulk_consume : forall (expose : fut S (res nat E)) (write : list T -> S -> S) consume_slots buf s,
    run (a_bulk_consume expose write consume_slots buf) s = default_bulk_consume (run expose) write (fun n => run (consume_slots n)) buf s.
  Proof. intros. unfold a_bulk_consume, default_bulk_consume. rgo. Qed.

  Lemma run_consume_full_slice : forall (C : a_consumer S T F E) buf i s,
    run (a_consume_full_slice_from C i buf) s = consume_full_slice_from (blocking_consumer C) i buf s.
  Proof.
    intros C. induction buf as [|x buf IH]; intros i s; [reflexivity|]. cbn [a_consume_full_slice_from consume_full_slice_from].
    rstep. cbn [blocking_consumer c_consume]. rdes; try reflexivity. rmatch. rmatch; rgo. apply IH.
  Qed.

  Lemma run_bulk_consume_full_slice : forall (C : a_bulk_consumer S T F E) fuel i buf s,
    run (a_bulk_consume_full_slice_loop fuel C i buf) s = bulk_consume_full_slice_loop fuel (blocking_bulk_consumer C) i buf s.
  Proof.
    intros C. induction fuel as [|fuel IH]; intros i buf s; [reflexivity|]. cbn [a_bulk_consume_full_slice_loop bulk_consume_full_slice_loop].
    destruct (i <? length buf); [|reflexivity]. rstep. rstep. rdes; try reflexivity. rstep. cbn [blocking_bulk_consumer c_bulk_consume].
    rdes; try reflexivity. destruct z0 as [s' [n|e]]; [apply IH|reflexivity].
  Qed.

  Lemma run_produce_item : forall (P : a_producer S T F E) s, run (a_produce_item P) s = produce_item (blocking_producer P) s.
  Proof. intros. unfold a_produce_item, produce_item. cbn [blocking_producer p_produce]. rgo. Qed.

  Lemma run_overwrite_full_slice : forall (P : a_producer S T F E) todo i buf s,
    run (a_overwrite_full_slice_from P todo i buf) s = overwrite_full_slice_from (blocking_producer P) todo i buf s.
  Proof.
    intros P. induction todo as [|todo IH]; intros i buf s; [reflexivity|]. cbn [a_overwrite_full_slice_from overwrite_full_slice_from].
    rstep. cbn [blocking_producer p_produce]. rdes; try reflexivity. destruct z as [s' [[x|f]|e]]; try reflexivity.
    rstep. rstep. rdes; try reflexivity. apply IH.
  Qed.

  Lemma run_bulk_overwrite_full_slice : forall (P : a_bulk_producer S T F E) fuel i buf s,
    run (a_bulk_overwrite_full_slice_loop fuel P i buf) s = bulk_overwrite_full_slice_loop fuel (blocking_bulk_producer P) i buf s.
  Proof.
    intros P. induction fuel as [|fuel IH]; intros i buf s; [reflexivity|]. cbn [a_bulk_overwrite_full_slice_loop bulk_overwrite_full_slice_loop].
    destruct (i <? length buf); [|reflexivity]. rstep. rstep. rdes; try reflexivity. rstep. cbn [blocking_bulk_producer p_bulk_produce].
    rdes; try reflexivity. destruct z0 as [s' [rest [[n|f]|e]]]; try reflexivity. apply IH.
  Qed.

  Lemma same_bulk_producer_of : forall produce slurp expose consider produce' slurp' expose' consider',
    (forall s, run produce s = produce' s) -> (forall s, run slurp s = slurp' s) -> (forall s, run expose s = expose' s) ->
    (forall n s, run (consider n) s = consider' n s) ->
    same_bulk_producer (blocking_bulk_producer (@a_bulk_producer_of S T F E produce slurp expose consider))
      (bulk_producer_of produce' slurp' expose' consider').
  Proof.
    intros produce slurp expose consider produce' slurp' expose' consider' H1 H2 H3 H4. split; [split; [exact H1|exact H2]|].
    split; [exact H3|]. split; [exact H4|]. intros buf s. cbn -[a_bulk_produce]. rewrite run_bulk_produce.
    unfold default_bulk_produce. rewrite H3. rdes; try reflexivity. destruct z as [s' [[x|f]|e]]; try reflexivity. now rewrite H4.
  Qed.

  Lemma same_bulk_consumer_of : forall consume close flush expose write slots consume' close' flush' expose' write' slots',
    (forall x s, run (consume x) s = consume' x s) -> (forall f s, run (close f) s = close' f s) -> (forall s, run flush s = flush' s) ->
    (forall s, run expose s = expose' s) -> (forall ys s, write ys s = write' ys s) -> (forall n s, run (slots n) s = slots' n s) ->
    same_bulk_consumer (blocking_bulk_consumer (@a_bulk_consumer_of S T F E consume close flush expose write slots))
      (bulk_consumer_of consume' close' flush' expose' write' slots').
  Proof.
    intros consume close flush expose write slots consume' close' flush' expose' write' slots' H1 H2 H3 H4 H5 H6.
    split; [split; [split; [exact H1|exact H2]|exact H3]|]. split; [exact H4|]. split; [exact H5|]. split; [exact H6|].
    intros buf s. cbn -[a_bulk_consume]. rewrite run_bulk_consume. unfold default_bulk_consume. rewrite H4. rdes; try reflexivity.
    destruct z as [s' [x|e]]; try reflexivity. now rewrite H5, H6.
  Qed.
End RunDefaults.

Section RunPipes.
  Context {SP SC T F PE CE : Type}.

  Lemma run_pipe : forall (P : a_producer SP T F PE) (C : a_consumer SC T F CE) fuel sp sc,
    run (a_pipe fuel P C) (sp, sc) = pipe fuel (blocking_producer P) (blocking_consumer C) sp sc.
  Proof.
    intros P C. induction fuel as [|fuel IH]; intros sp sc; [reflexivity|]. cbn [a_pipe pipe].
    rstep. rstep. cbn [blocking_producer p_produce]. rdes; try reflexivity. destruct z as [sp' [[x|f]|e]]; cbn [bind]; try reflexivity.
    - rstep. rstep. cbn [blocking_consumer c_consume]. rdes; try reflexivity. destruct z as [sc' [[]|e]]; cbn [bind]; try reflexivity. apply IH.
    - rstep. rstep. cbn [blocking_consumer c_close]. rdes; try reflexivity. destruct z as [sc' [[]|e]]; reflexivity.
  Qed.

  Lemma run_bulk_pipe : forall (P : a_bulk_producer SP T F PE) (C : a_bulk_consumer SC T F CE) fuel sp sc,
    run (a_bulk_pipe fuel P C) (sp, sc) = bulk_pipe fuel (blocking_bulk_producer P) (blocking_bulk_consumer C) sp sc.
  Proof.
    intros P C. induction fuel as [|fuel IH]; intros sp sc; [reflexivity|]. cbn [a_bulk_pipe bulk_pipe].
    rstep. rstep. cbn [blocking_bulk_producer p_expose]. rdes; try reflexivity. destruct z as [sp' [[x|f]|e]]; cbn [bind]; try reflexivity.
    - rstep. rstep. cbn [blocking_bulk_consumer c_bulk_consume]. rdes; try reflexivity. destruct z as [sc' [n|e]]; cbn [bind]; try reflexivity.
      rstep. rstep. cbn [blocking_bulk_producer p_consider]. rdes; try reflexivity. destruct z as [sp2 [[]|e]]; cbn [bind]; try reflexivity. apply IH.
    - rstep. rstep. cbn [blocking_bulk_consumer c_close c_buffered c_consumer blocking_buffered_consumer blocking_consumer].
      rdes; try reflexivity. destruct z as [sc' [[]|e]]; reflexivity.
  Qed.

  Lemma run_pipe_at_most : forall (P : a_producer SP T F PE) (C : a_consumer SC T F CE) todo piped sp sc,
    run (a_pipe_at_most_loop todo P C piped) (sp, sc) = pipe_at_most_loop todo (blocking_producer P) (blocking_consumer C) piped sp sc.
  Proof.
    intros P C. induction todo as [|todo IH]; intros piped sp sc; [reflexivity|]. cbn [a_pipe_at_most_loop pipe_at_most_loop].
    rstep. rstep. cbn [blocking_producer p_produce]. rdes; try reflexivity. destruct z as [sp' [[x|f]|e]]; cbn [bind]; try reflexivity.
    - rstep. rstep. cbn [blocking_consumer c_consume]. rdes; try reflexivity. destruct z as [sc' [[]|e]]; cbn [bind]; try reflexivity. apply IH.
    - rstep. rstep. cbn [blocking_consumer c_close]. rdes; try reflexivity. destruct z as [sc' [[]|e]]; reflexivity.
  Qed.

  Lemma run_bulk_pipe_at_most : forall (P : a_bulk_producer SP T F PE) (C : a_bulk_consumer SC T F CE) count fuel piped sp sc,
    run (a_bulk_pipe_at_most_loop fuel P C count piped) (sp, sc) =
      bulk_pipe_at_most_loop fuel (blocking_bulk_producer P) (blocking_bulk_consumer C) count piped sp sc.
  Proof.
    intros P C count. induction fuel as [|fuel IH]; intros piped sp sc; [reflexivity|]. cbn [a_bulk_pipe_at_most_loop bulk_pipe_at_most_loop].
    destruct (piped <? count); [|reflexivity].
    rstep. rstep. cbn [blocking_bulk_producer p_expose]. rdes; try reflexivity. destruct z as [sp' [[x|f]|e]]; cbn [bind]; try reflexivity.
    - rstep. rstep. rdes; try reflexivity. rstep. rstep. rdes; try reflexivity.
      rstep. rstep. cbn [blocking_bulk_consumer c_bulk_consume]. rdes; try reflexivity. destruct z1 as [sc' [n|e]]; cbn [bind]; try reflexivity.
      rstep. rstep. cbn [blocking_bulk_producer p_consider]. rdes; try reflexivity. destruct z1 as [sp2 [[]|e]]; cbn [bind]; try reflexivity. apply IH.
    - rstep. rstep. cbn [blocking_bulk_consumer c_close c_buffered c_consumer blocking_buffered_consumer blocking_consumer].
      rdes; try reflexivity. destruct z as [sc' [[]|e]]; reflexivity.
  Qed.
End RunPipes.

Section RunBasics.
  Context {T F E : Type}.

  Lemma same_from_slice : same_bulk_producer (blocking_bulk_producer (@a_from_slice T)) from_slice_producer.
  Proof. apply same_bulk_producer_of; intros; apply run_sync. Qed.
  Lemma same_empty : same_bulk_producer (blocking_bulk_producer (@a_empty T F E)) empty_producer.
  Proof. apply same_bulk_producer_of; intros; apply run_sync. Qed.
  Lemma same_into_vec : forall d : T, same_bulk_consumer (blocking_bulk_consumer (a_into_vec d)) (into_vec_consumer d).
  Proof. intros d. apply same_bulk_consumer_of; intros; try apply run_sync. reflexivity. Qed.
  Lemma same_into_slice : same_bulk_consumer (blocking_bulk_consumer (@a_into_slice T)) into_slice_consumer.
  Proof. apply same_bulk_consumer_of; intros; try apply run_sync. reflexivity. Qed.
End RunBasics.

Lemma run_yield_polls : forall n y, run (a_yield_polls n) y = let* y := yielder_await n y in Ret (y, tt).
Proof.
  induction n as [|n IH]; intros y; [reflexivity|]. cbn. destruct (yielder_poll y) as [[y' [|]]| |]; try reflexivity. apply IH.
Qed.

Lemma run_maybe_yield : forall y, run a_maybe_yield y = let* y := maybe_yield y in Ret (y, tt).
Proof.
  intros [y|]; unfold a_maybe_yield; rewrite run_await, run_get; cbn [bind]; [|reflexivity].
  rewrite run_within by reflexivity. unfold a_yielder_maybe_yield. rewrite run_await, run_get. cbn [bind].
  rewrite run_yield_polls. unfold maybe_yield. destruct (yielder_await _ y); reflexivity.
Qed.

Section RunTests.
  Context {T F E : Type}.

  Lemma run_tp_maybe_yield : forall s : test_producer_state T F E,
    run a_tp_maybe_yield s = let* s := tp_maybe_yield s in Ret (s, tt).
  Proof.
    intros s. unfold a_tp_maybe_yield, tp_maybe_yield. rewrite run_within by reflexivity. rewrite run_maybe_yield.
    destruct (maybe_yield (tp_yielder s)); reflexivity.
  Qed.

  Lemma same_test_producer : same_bulk_producer (blocking_bulk_producer (@a_test_producer T F E)) test_producer.
  Proof.
    apply same_bulk_producer_of.
    - intros s. unfold a_test_producer_produce, test_producer_produce. rewrite run_await, run_tp_maybe_yield.
      destruct (tp_maybe_yield s) as [s1| |]; cbn [bind]; try reflexivity. rstep. rstep. cbn [bind]. rstep. rstep.
      destruct (from_slice_not_yet_produced (tp_inner s1)) as [[|x xs]| |]; cbn [bind]; try reflexivity.
      + rstep. rstep. destruct (tp_take_last s1) as [[s2 [f|e]]| |]; reflexivity.
      + unfold a_tp_inner. rstep. rstep. cbn [ap_produce ap_producer ap_buffered a_from_slice a_bulk_producer_of]. rstep.
        destruct (from_slice_produce (tp_inner s1)) as [[i r]| |]; cbn [bind]; try reflexivity. rstep. rstep.
        destruct (unwrap_left r); reflexivity.
    - intros s. unfold a_test_producer_slurp, test_producer_slurp. rewrite run_await, run_tp_maybe_yield.
      destruct (tp_maybe_yield s) as [s1| |]; cbn [bind]; try reflexivity. rstep. rstep.
      destruct (tp_check_error s1) as [[s2 [e|]]| |]; reflexivity.
    - intros s. unfold a_test_producer_expose, test_producer_expose. rewrite run_await, run_tp_maybe_yield.
      destruct (tp_maybe_yield s) as [s1| |]; cbn [bind]; try reflexivity. rstep. rstep. cbn [bind]. rstep. rstep.
      destruct (from_slice_not_yet_produced (tp_inner s1)) as [[|x xs]| |]; cbn [bind]; try reflexivity.
      + rstep. rstep. destruct (tp_take_last s1) as [[s2 [f|e]]| |]; reflexivity.
      + destruct (tp_sizes s1) as [sz|].
        * rstep. rstep. destruct (next_size sz) as [[m sz']| |]; cbn [bind]; try reflexivity. rstep. rstep. cbn [bind].
          unfold a_tp_inner. rstep. rstep. cbn [ap_expose a_from_slice a_bulk_producer_of]. rstep. cbn [tp_inner].
          destruct (from_slice_expose (tp_inner s1)) as [[i r]| |]; cbn [bind]; try reflexivity. rstep. rstep.
          destruct (unwrap_left r) as [items| |]; cbn [bind]; try reflexivity. rstep. rstep. destruct (slice_to _ items); reflexivity.
        * unfold a_tp_inner. rstep. rstep. cbn [ap_expose a_from_slice a_bulk_producer_of]. rstep.
          destruct (from_slice_expose (tp_inner s1)) as [[i r]| |]; cbn [bind]; try reflexivity. rstep. rstep.
          destruct (unwrap_left r) as [items| |]; reflexivity.
    - intros n s. unfold a_test_producer_consider, test_producer_consider. rewrite run_await, run_tp_maybe_yield.
      destruct (tp_maybe_yield s) as [s1| |]; cbn [bind]; try reflexivity. rstep. rstep.
      destruct (tp_check_error s1) as [[s2 [e|]]| |]; reflexivity.
  Qed.

  Lemma run_tc_maybe_yield : forall s : test_consumer_state T F E,
    run a_tc_maybe_yield s = let* s := tc_maybe_yield s in Ret (s, tt).
  Proof.
    intros s. unfold a_tc_maybe_yield, tc_maybe_yield. rewrite run_within by reflexivity. rewrite run_maybe_yield.
    destruct (maybe_yield (tc_yielder s)); reflexivity.
  Qed.

  Lemma same_test_consumer : forall d : T, same_bulk_consumer (blocking_bulk_consumer (@a_test_consumer T F E d)) (test_consumer d).
  Proof.
    intros d. apply same_bulk_consumer_of.
    - intros x s. unfold a_test_consumer_consume, test_consumer_consume. rewrite run_await, run_tc_maybe_yield.
      destruct (tc_maybe_yield s) as [s1| |]; cbn [bind]; try reflexivity. rstep. rstep.
      destruct (tc_check_error s1) as [[s2 [e|]]| |]; cbn [bind]; try reflexivity. unfold a_tc_inner. rstep. rstep.
      cbn [ac_consume ac_consumer ac_buffered a_into_vec a_bulk_consumer_of]. rstep.
      destruct (into_vec_consume d x (tc_inner s2)) as [[i r]| |]; cbn [bind]; try reflexivity. rstep. unfold a_tc_count. rstep.
      cbn [tc_set_inner tc_left]. destruct (csub (tc_left s2) 1); reflexivity.
    - intros f s. unfold a_test_consumer_close, test_consumer_close. rewrite run_await, run_tc_maybe_yield.
      destruct (tc_maybe_yield s) as [s1| |]; cbn [bind]; try reflexivity. rstep. rstep.
      destruct (tc_check_error s1) as [[s2 [e|]]| |]; reflexivity.
    - intros s. unfold a_test_consumer_flush, test_consumer_flush. rewrite run_await, run_tc_maybe_yield.
      destruct (tc_maybe_yield s) as [s1| |]; cbn [bind]; try reflexivity. rstep. rstep.
      destruct (tc_check_error s1) as [[s2 [e|]]| |]; reflexivity.
    - intros s. unfold a_test_consumer_expose, test_consumer_expose. rewrite run_await, run_tc_maybe_yield.
      destruct (tc_maybe_yield s) as [s1| |]; cbn [bind]; try reflexivity. rstep. rstep.
      destruct (tc_check_error s1) as [[s2 [e|]]| |]; cbn [bind]; try reflexivity. rstep. rstep.
      destruct (match tc_sizes s2 with None => Ret (None, None) | Some sz => let* (n, sz) := next_size sz in Ret (Some n, Some sz) end)
        as [[m sz]| |]; cbn [bind]; try reflexivity.
      generalize (min_opt 2048 m). intros min_len.
      rstep. rstep. cbn [tc_inner]. destruct (tc_grow d (min_len + 1) min_len (tc_inner s2)) as [i| |]; cbn [bind]; try reflexivity.
      unfold a_tc_inner. rstep. rstep. cbn [ac_expose a_into_vec a_bulk_consumer_of]. rstep. cbn [tc_set_inner tc_inner].
      destruct (into_vec_expose d i) as [[i2 [n|e]]| |]; cbn [bind]; try reflexivity.
    - reflexivity.
    - intros n s. unfold a_test_consumer_consume_slots, test_consumer_consume_slots. rewrite run_await, run_tc_maybe_yield.
      destruct (tc_maybe_yield s) as [s1| |]; cbn [bind]; try reflexivity. rstep. rstep.
      destruct (tc_check_error s1) as [[s2 [e|]]| |]; cbn [bind]; try reflexivity. unfold a_tc_inner. rstep. rstep.
      cbn [ac_consume_slots a_into_vec a_bulk_consumer_of]. rstep.
      destruct (into_vec_consume_slots n (tc_inner s2)) as [[i r]| |]; cbn [bind]; try reflexivity. rstep. unfold a_tc_count. rstep.
      cbn [tc_set_inner tc_left]. destruct (csub (tc_left s2) n); reflexivity.
  Qed.
End RunTests.

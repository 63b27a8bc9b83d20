(** The states in which futures return [Pending]. *)
From Coq Require Import Bool List Arith Lia.
From Verif Require Import Prelude ListFacts Traits Contracts ContractFacts BasicSpec BasicModel BasicProofs.
From Verif Require Import AsyncModel AsyncAdaptorModel AsyncSpec AsyncProofs AsyncYieldProofs AsyncCountProofs.
Import ListNotations.

Lemma suspended_await : forall S X Y (f : fut S X) (k : X -> fut S Y) s,
  suspended (await f k) s = suspended f s ++ match run f s with Ret (s', x) => suspended (k x) s' | _ => [] end.
Proof.
  intros S X Y. fix IH 1. intros [p] k s. cbn. destruct (p s) as [[s' [x|w f']]| |] eqn:E1; cbn; try reflexivity.
  - destruct (k x) as [q]. reflexivity.
  - now rewrite IH.
Qed.

Lemma suspended_sync : forall S X (g : S -> outcome (S * X)) s, suspended (sync g) s = [].
Proof. intros S X g s. cbn. destruct (g s) as [[s' x]| |]; reflexivity. Qed.

Lemma suspended_within : forall S I X (field : S -> I) (set : I -> S -> S), (forall i s, field (set i s) = i) -> (forall i j s, set i (set j s) = set i s) ->
  forall (f : fut I X) s, suspended (within field set f) s = map (fun i => set i s) (suspended f (field s)).
Proof.
  intros S I X field set H1 H2. fix IH 1. intros [p] s. cbn. destruct (p (field s)) as [[i [x|w f']]| |] eqn:E1; cbn; try reflexivity.
  rewrite IH, H1. f_equal. apply map_ext. intros j. apply H2.
Qed.

Lemma suspended_length : forall S X (f : fut S X) s, length (suspended f s) = pendings f s.
Proof.
  intros S X. fix IH 1. intros [p] s. cbn. destruct (p s) as [[s' [x|w f']]| |] eqn:E1; cbn; try reflexivity. now rewrite IH.
Qed.

Lemma suspended_none : forall S X (f : fut S X), pending_only (fun _ => False) f -> forall s, suspended f s = [].
Proof. intros S X [p] H s. cbn in *. specialize (H s). destruct (p s) as [[s' [x|w f']]| |] eqn:E1; try reflexivity. destruct H as [[] _]. Qed.

Lemma suspended_on_fst : forall A B X (f : fut A X) a (b : B), suspended (on_fst f) (a, b) = map (fun a => (a, b)) (suspended f a).
Proof. intros. unfold on_fst. now rewrite suspended_within by reflexivity. Qed.
Lemma suspended_on_snd : forall A B X (f : fut B X) (a : A) b, suspended (on_snd f) (a, b) = map (fun b => (a, b)) (suspended f b).
Proof. intros. unfold on_snd. now rewrite suspended_within by reflexivity. Qed.

(** The states that polling reaches. *)
Lemma polls_suspended : forall S X (f : fut S X) n s s' w f', polls (Datatypes.S n) f s = Ret (s', Pending w f') -> nth_error (suspended f s) n = Some s'.
Proof.
  intros S X. fix IH 1. intros [p] n s s' w f' H. cbn in *. destruct (p s) as [[s1 [x|w1 f1]]| |] eqn:E1; try discriminate H.
  destruct n as [|n]; [injection H as <- _ _; reflexivity|]. exact (IH f1 n s1 s' w f' H).
Qed.

Lemma feed_app : forall A T F E (M : machine A T F E) xs ys a a' n, m_feed M xs a = (a', n, None) -> n = length xs /\
  m_feed M (xs ++ ys) a = let '(a2, n2, e) := m_feed M ys a' in (a2, length xs + n2, e).
Proof.
  intros A T F E M. induction xs as [|x xs IH]; intros ys a a' n H; cbn in *.
  - injection H as <- <-. split; [reflexivity|]. destruct (m_feed M ys a) as [[? ?] ?]; reflexivity.
  - destruct (m_step M x a) as [a1 [u|e]]; [|discriminate H]. destruct (m_feed M xs a1) as [[a2 n2] e2] eqn:E1. injection H as <- <- ->.
    destruct (IH ys _ _ _ E1) as [-> ->]. split; [reflexivity|]. destruct (m_feed M ys a2) as [[? ?] ?]; reflexivity.
Qed.

Section Pipes.
  Context {SP SC A T F PE CE : Type}.
  Variables (P : a_bulk_producer SP T F PE) (R : SP -> list T -> res F PE -> nat -> Prop) (D : SP -> Prop).
  Variables (C : a_bulk_consumer SC T F CE) (M : machine A T F CE) (RC : SC -> A -> nat -> list T -> Prop) (DC : SC -> A -> Prop).
  Hypothesis LP : lawful_producer (blocking_bulk_producer P) R D.
  Hypothesis LC : lawful_consumer (blocking_bulk_consumer C) M RC DC.

  Lemma feed_snoc : forall ys a a1 x a2 u, m_feed M ys a = (a1, length ys, None) -> m_step M x a1 = (a2, Ok u) ->
    m_feed M (ys ++ [x]) a = (a2, length (ys ++ [x]), None).
  Proof.
    intros ys a a1 x a2 u H1 H2. destruct (@feed_app _ _ _ _ M ys [x] _ _ _ H1) as [_ ->]. cbn. rewrite H2. now rewrite app_length.
  Qed.

  Lemma pipe_suspended : forall fuel sp sc xs l k a kk w, R sp xs l k -> RC sc a kk w ->
    forall sp' sc', In (sp', sc') (suspended (a_pipe fuel P C) (sp, sc)) -> pipe_interrupted P R D C M RC xs l a sp' sc'.
  Proof.
    assert (G : forall fuel sp sc ys rest l k a a1 kk w, R sp rest l k -> RC sc a1 kk w -> m_feed M ys a = (a1, length ys, None) ->
      forall sp' sc', In (sp', sc') (suspended (a_pipe fuel P C) (sp, sc)) -> pipe_interrupted P R D C M RC (ys ++ rest) l a sp' sc').
    { induction fuel as [|fuel IH]; intros sp sc ys rest l k a a1 kk w HR HC HF sp' sc' Hin; [destruct Hin|]. cbn [a_pipe] in Hin.
      rewrite suspended_await, suspended_on_fst, run_on_fst in Hin. apply in_app_or in Hin as [Hin|Hin].
      { apply in_map_iff in Hin as (sq & Eq & Hin). injection Eq as <- <-. exists ys, rest, a1. split; [reflexivity|]. split; [exact HF|]. left. exists sp, k, kk, w. now split. }
      destruct rest as [|x rest].
      - destruct (lp_produce_last LP HR) as (sp1 & E1 & HD). cbn [blocking_bulk_producer p_produce p_producer p_buffered blocking_buffered_producer blocking_producer] in E1.
        rewrite E1 in Hin. cbn [bind] in Hin. destruct l as [f|e]; cbn [report_last] in Hin; [|destruct Hin].
        rewrite suspended_await, suspended_on_snd, run_on_snd in Hin. apply in_app_or in Hin as [Hin|Hin].
        + apply in_map_iff in Hin as (sq & Eq & Hin). injection Eq as <- <-. exists ys, [], a1. split; [reflexivity|]. split; [exact HF|]. right. right.
          exists f. split; [reflexivity|]. split; [reflexivity|]. split; [exact HD|]. eauto.
        + destruct (run (ac_close C f) sc) as [[sc1 [[]|e]]| |]; cbn in Hin; destruct Hin.
      - destruct (lp_produce LP HR) as (sp1 & E1 & HR1). cbn [blocking_bulk_producer p_produce p_producer p_buffered blocking_buffered_producer blocking_producer] in E1.
        rewrite E1 in Hin. cbn [bind] in Hin. rewrite suspended_await, suspended_on_snd, run_on_snd in Hin. apply in_app_or in Hin as [Hin|Hin].
        + apply in_map_iff in Hin as (sq & Eq & Hin). injection Eq as <- <-. exists ys, (x :: rest), a1. split; [reflexivity|]. split; [exact HF|]. right. left.
          exists x, rest. split; [reflexivity|]. split; eauto.
        + destruct (lc_consume LC x HC) as (sc1 & E2 & HC1). cbn [blocking_bulk_consumer c_consume c_consumer c_buffered blocking_buffered_consumer blocking_consumer] in E2.
          rewrite E2 in Hin. cbn [bind] in Hin. destruct (m_step M x a1) as [a2 [[]|e]] eqn:E3; cbn [snd] in Hin; [|destruct Hin].
          replace (ys ++ x :: rest) with ((ys ++ [x]) ++ rest) by (rewrite <- app_assoc; reflexivity).
          eapply IH; [exact HR1|exact HC1| |exact Hin]. eapply feed_snoc; eassumption. }
    intros fuel sp sc xs l k a kk w HR HC sp' sc' Hin. exact (G fuel sp sc [] xs l k a a kk w HR HC eq_refl sp' sc' Hin).
  Qed.

  Lemma bulk_pipe_suspended : forall fuel sp sc xs l k a kk w, R sp xs l k -> RC sc a kk w ->
    forall sp' sc', In (sp', sc') (suspended (a_bulk_pipe fuel P C) (sp, sc)) -> bulk_pipe_interrupted P R D C M RC xs l a sp' sc'.
  Proof.
    assert (G : forall fuel sp sc ys rest l k a a1 kk w, R sp rest l k -> RC sc a1 kk w -> m_feed M ys a = (a1, length ys, None) ->
      forall sp' sc', In (sp', sc') (suspended (a_bulk_pipe fuel P C) (sp, sc)) -> bulk_pipe_interrupted P R D C M RC (ys ++ rest) l a sp' sc').
    { induction fuel as [|fuel IH]; intros sp sc ys rest l k a a1 kk w HR HC HF sp' sc' Hin; [destruct Hin|]. cbn [a_bulk_pipe] in Hin.
      rewrite suspended_await, suspended_on_fst, run_on_fst in Hin. apply in_app_or in Hin as [Hin|Hin].
      { apply in_map_iff in Hin as (sq & Eq & Hin). injection Eq as <- <-. exists ys, rest, a1. split; [reflexivity|]. split; [exact HF|]. left. exists sp, k, kk, w. now split. }
      destruct rest as [|x rest].
      - destruct (lp_expose_last LP HR) as (sp1 & E1 & HD). cbn [blocking_bulk_producer p_expose] in E1.
        rewrite E1 in Hin. cbn [bind] in Hin. destruct l as [f|e]; cbn [report_last] in Hin; [|destruct Hin].
        rewrite suspended_await, suspended_on_snd, run_on_snd in Hin. apply in_app_or in Hin as [Hin|Hin].
        + apply in_map_iff in Hin as (sq & Eq & Hin). injection Eq as <- <-. exists ys, [], a1. split; [reflexivity|]. split; [exact HF|]. right. right. right.
          exists f. split; [reflexivity|]. split; [reflexivity|]. split; [exact HD|]. eauto.
        + destruct (run (ac_close C f) sc) as [[sc1 [[]|e]]| |]; cbn in Hin; destruct Hin.
      - destruct (lp_expose LP HR) as (sp1 & zs & rest' & E1 & Hne & Hxs & HR1); [discriminate|]. cbn [blocking_bulk_producer p_expose] in E1.
        rewrite E1 in Hin. cbn [bind] in Hin. rewrite suspended_await, suspended_on_snd, run_on_snd in Hin. apply in_app_or in Hin as [Hin|Hin].
        + apply in_map_iff in Hin as (sq & Eq & Hin). injection Eq as <- <-. exists ys, (x :: rest), a1. split; [reflexivity|]. split; [exact HF|]. right. left.
          exists zs, rest'. split; [exact Hxs|]. split; [exact Hne|]. split; [exact HR1|]. eauto.
        + destruct (lc_bulk LC zs HC Hne) as [(sc1 & n & a2 & E2 & Hn & HF2 & HC1)|(sc1 & n & e & a2 & E2 & _)]; cbn [blocking_bulk_consumer c_bulk_consume] in E2;
            rewrite E2 in Hin; cbn [bind] in Hin; [|destruct Hin].
          assert (Hlz : length (firstn n zs) = n) by (rewrite firstn_length; lia).
          assert (HF' : m_feed M (ys ++ firstn n zs) a = (a2, length (ys ++ firstn n zs), None)).
          { destruct (@feed_app _ _ _ _ M ys (firstn n zs) _ _ _ HF) as [_ ->]. rewrite HF2, app_length, Hlz. reflexivity. }
          rewrite suspended_await, suspended_on_fst, run_on_fst in Hin. apply in_app_or in Hin as [Hin|Hin].
          * apply in_map_iff in Hin as (sq & Eq & Hin). injection Eq as <- <-. exists ys, (x :: rest), a1. split; [reflexivity|]. split; [exact HF|].
            right. right. left. exists zs, rest', n, a2. split; [exact Hxs|]. split; [lia|]. split; [rewrite HF2; f_equal; f_equal; lia|]. split; [eauto|]. eauto.
          * assert (Hlen : 1 <= length zs) by lia.
            destruct (lp_consider LP n HR1 Hlen (proj2 Hn)) as (sp2 & E3 & HR2). cbn [blocking_bulk_producer p_consider] in E3.
            rewrite E3 in Hin. cbn [bind] in Hin.
            replace (ys ++ x :: rest) with ((ys ++ firstn n zs) ++ skipn n (x :: rest)).
            -- eapply IH; [exact HR2|exact HC1|exact HF'|exact Hin].
            -- rewrite Hxs, skipn_app. replace (n - length zs) with 0 by lia. cbn [skipn]. rewrite <- app_assoc. f_equal. rewrite app_assoc. f_equal. apply firstn_skipn. }
    intros fuel sp sc xs l k a kk w HR HC sp' sc' Hin. exact (G fuel sp sc [] xs l k a a kk w HR HC eq_refl sp' sc' Hin).
  Qed.
End Pipes.

(** *** The test objects *)
Lemma suspended_first : forall S X Y (f : fut S X) (k : X -> fut S Y), (forall x, pending_only (fun _ => False) (k x)) ->
  forall s, suspended (await f k) s = suspended f s.
Proof.
  intros S X Y f k H s. rewrite suspended_await. destruct (run f s) as [[s' x]| |]; try apply app_nil_r.
  rewrite (suspended_none _ _ _ (H x)). apply app_nil_r.
Qed.

Lemma yield_polls_suspended : forall n y y', y_ok y -> In y' (suspended (a_yield_polls n) y) -> y_ok y'.
Proof.
  induction n as [|n IH]; intros y y' Hy Hin; [destruct Hin|]. cbn in Hin. rewrite poll_ok in Hin by apply Hy. cbn [bind] in Hin.
  assert (Hy1 : y_ok (mk_yielder (y_pattern y) ((y_index y + 1) mod length (y_pattern y)))).
  { destruct Hy as [H1 H2]. split; cbn; [apply Nat.mod_upper_bound; lia|exact H2]. }
  destruct (negb _); [destruct Hin|]. destruct Hin as [<-|Hin]; [exact Hy1|]. eapply IH; eassumption.
Qed.

Lemma maybe_yield_suspended : forall y y', oy_ok y -> In y' (suspended a_maybe_yield y) -> oy_ok y'.
Proof.
  intros [y|] y' Hy Hin; unfold a_maybe_yield in Hin; rewrite suspended_await, run_get in Hin; cbn in Hin; [|destruct Hin].
  change (In y' (suspended (within (fun o => match o with Some y => y | None => y end) (fun y _ => Some y) a_yielder_maybe_yield) (Some y))) in Hin.
  rewrite suspended_within in Hin by reflexivity. apply in_map_iff in Hin as (y1 & <- & Hin).
  unfold a_yielder_maybe_yield in Hin. rewrite suspended_await, run_get in Hin. cbn in Hin. eapply yield_polls_suspended; eassumption.
Qed.

Section TestProducer.
  Context {T F E : Type}.
  Notation state := (test_producer_state T F E).
  Notation with_yielder s := (map (fun y => mk_tp (tp_inner s) (tp_last s) (tp_sizes s) y)).

  Lemma tp_yield_suspended : forall s : state, suspended a_tp_maybe_yield s = with_yielder s (suspended a_maybe_yield (tp_yielder s)).
  Proof. intros s. unfold a_tp_maybe_yield. now rewrite suspended_within by reflexivity. Qed.

  Lemma tp_produce_suspended : forall s : state, suspended (ap_produce a_test_producer) s = with_yielder s (suspended a_maybe_yield (tp_yielder s)).
  Proof. intros s. rewrite <- tp_yield_suspended. apply suspended_first. unfold a_tp_inner. po. Qed.
  Lemma tp_slurp_suspended : forall s : state, suspended (ap_slurp a_test_producer) s = with_yielder s (suspended a_maybe_yield (tp_yielder s)).
  Proof. intros s. rewrite <- tp_yield_suspended. apply suspended_first. po. Qed.
  Lemma tp_expose_suspended : forall s : state, suspended (ap_expose a_test_producer) s = with_yielder s (suspended a_maybe_yield (tp_yielder s)).
  Proof. intros s. rewrite <- tp_yield_suspended. apply suspended_first. unfold a_tp_inner. po. Qed.
  Lemma tp_consider_suspended : forall n (s : state), suspended (ap_consider a_test_producer n) s = with_yielder s (suspended a_maybe_yield (tp_yielder s)).
  Proof. intros n s. rewrite <- tp_yield_suspended. apply suspended_first. unfold a_tp_inner. po. Qed.

  Lemma tp_rel_yielder : forall (s : state) xs l k s', tp_rel s xs l k -> In s' (with_yielder s (suspended a_maybe_yield (tp_yielder s))) -> tp_rel s' xs l k.
  Proof.
    intros s xs l k s' (H1 & H2 & H3 & H4) Hin. apply in_map_iff in Hin as (y & <- & Hin).
    unfold tp_rel; cbn [tp_inner tp_last tp_sizes tp_yielder]. split; [exact H1|]. split; [exact H2|]. split; [exact H3|]. eapply maybe_yield_suspended; eassumption.
  Qed.

  Lemma test_producer_waiting : waiting_producer (@a_test_producer T F E) tp_rel.
  Proof.
    intros s xs l k s' HR H. destruct H as [H|[H|[H|[(n & H)|(buf & H)]]]].
    - rewrite tp_produce_suspended in H. exists k. eapply tp_rel_yielder; eassumption.
    - rewrite tp_slurp_suspended in H. exists k. eapply tp_rel_yielder; eassumption.
    - rewrite tp_expose_suspended in H. exists k. eapply tp_rel_yielder; eassumption.
    - rewrite tp_consider_suspended in H. exists k. eapply tp_rel_yielder; eassumption.
    - change (In s' (suspended (a_bulk_produce (ap_expose a_test_producer) (ap_consider a_test_producer) buf) s)) in H.
      unfold a_bulk_produce in H. rewrite suspended_await in H. apply in_app_or in H as [H|H].
      + rewrite tp_expose_suspended in H. exists k. eapply tp_rel_yielder; eassumption.
      + destruct (@same_test_producer T F E) as (_ & HE & _). specialize (HE s). cbn [blocking_bulk_producer p_expose] in HE. rewrite HE in H.
        destruct xs as [|x xs].
        * destruct (lp_expose_last (@test_producer_core T F E) HR) as (s1 & E1 & HD). rewrite E1 in H. destruct l as [f|e]; destruct H.
        * destruct (lp_expose (@test_producer_core T F E) HR) as (s1 & ys & rest & E1 & Hne & Hxs & HR1); [discriminate|]. rewrite E1 in H.
          rewrite suspended_await in H. apply in_app_or in H as [H|H].
          -- rewrite tp_consider_suspended in H. exists (length ys). eapply tp_rel_yielder; eassumption.
          -- destruct (run (ap_consider a_test_producer _) s1) as [[s2 [[]|e]]| |]; destruct H.
  Qed.
End TestProducer.

Section TestConsumer.
  Context {T F E : Type} (d : T) (error : E).
  Notation state := (test_consumer_state T F E).
  Notation with_yielder s := (map (fun y => mk_tc (tc_inner s) (tc_fin s) (tc_error s) (tc_left s) (tc_sizes s) y)).

  Lemma tc_yield_suspended : forall s : state, suspended a_tc_maybe_yield s = with_yielder s (suspended a_maybe_yield (tc_yielder s)).
  Proof. intros s. unfold a_tc_maybe_yield. now rewrite suspended_within by reflexivity. Qed.

  Lemma tc_consume_suspended : forall x (s : state), suspended (ac_consume (a_test_consumer d) x) s = with_yielder s (suspended a_maybe_yield (tc_yielder s)).
  Proof. intros x s. rewrite <- tc_yield_suspended. apply suspended_first. unfold a_tc_inner, a_tc_count. po. Qed.
  Lemma tc_close_suspended : forall f (s : state), suspended (ac_close (a_test_consumer d) f) s = with_yielder s (suspended a_maybe_yield (tc_yielder s)).
  Proof. intros f s. rewrite <- tc_yield_suspended. apply suspended_first. unfold a_tc_inner, a_tc_count. po. Qed.
  Lemma tc_flush_suspended : forall s : state, suspended (ac_flush (a_test_consumer d)) s = with_yielder s (suspended a_maybe_yield (tc_yielder s)).
  Proof. intros s. rewrite <- tc_yield_suspended. apply suspended_first. unfold a_tc_inner, a_tc_count. po. Qed.
  Lemma tc_expose_suspended : forall s : state, suspended (ac_expose (a_test_consumer d)) s = with_yielder s (suspended a_maybe_yield (tc_yielder s)).
  Proof. intros s. rewrite <- tc_yield_suspended. apply suspended_first. unfold a_tc_inner, a_tc_count. po. Qed.
  Lemma tc_slots_suspended : forall n (s : state), suspended (ac_consume_slots (a_test_consumer d) n) s = with_yielder s (suspended a_maybe_yield (tc_yielder s)).
  Proof. intros n s. rewrite <- tc_yield_suspended. apply suspended_first. unfold a_tc_inner, a_tc_count. po. Qed.

  Lemma tc_rel_yielder : forall (s : state) a k w s', tc_rel error s a k w -> In s' (with_yielder s (suspended a_maybe_yield (tc_yielder s))) -> tc_rel error s' a k w.
  Proof.
    intros s a k w s' (H1 & H2 & H3 & H4 & H5 & H6 & H7 & H8) Hin. apply in_map_iff in Hin as (y & <- & Hin).
    unfold tc_rel; cbn [tc_inner tc_fin tc_error tc_left tc_sizes tc_yielder]. do 7 (split; [assumption|]). eapply maybe_yield_suspended; eassumption.
  Qed.

  Lemma test_consumer_waiting : waiting_consumer (@a_test_consumer T F E d) (tc_rel error).
  Proof.
    intros s a k w s' HR H. destruct H as [(x & H)|[(f & H)|[H|[H|[(n & H)|(buf & H)]]]]].
    - rewrite tc_consume_suspended in H. exists k, w. eapply tc_rel_yielder; eassumption.
    - rewrite tc_close_suspended in H. exists k, w. eapply tc_rel_yielder; eassumption.
    - rewrite tc_flush_suspended in H. exists k, w. eapply tc_rel_yielder; eassumption.
    - rewrite tc_expose_suspended in H. exists k, w. eapply tc_rel_yielder; eassumption.
    - rewrite tc_slots_suspended in H. exists k, w. eapply tc_rel_yielder; eassumption.
    - change (In s' (suspended (a_bulk_consume (ac_expose (a_test_consumer d)) (@test_consumer_write T F E) (ac_consume_slots (a_test_consumer d)) buf) s)) in H.
      unfold a_bulk_consume in H. rewrite suspended_await in H. apply in_app_or in H as [H|H].
      + rewrite tc_expose_suspended in H. exists k, w. eapply tc_rel_yielder; eassumption.
      + destruct (@same_test_consumer T F E d) as (_ & HE & _). specialize (HE s). cbn [blocking_bulk_consumer c_expose] in HE. rewrite HE in H.
        destruct (lc_expose (@test_consumer_core T F E d error) HR) as [(s1 & n & E1 & Hn & HR1)|(s1 & e & a1 & E1 & _)]; rewrite E1 in H; [|destruct H].
        rewrite suspended_await, suspended_sync, run_sync in H. cbn [app] in H.
        pose proof (lc_write (@test_consumer_core T F E d error) (firstn (Nat.min n (length buf)) buf) HR1) as HW.
        rewrite firstn_length in HW. specialize (HW ltac:(lia)).
        change (c_write (test_consumer d)) with (@test_consumer_write T F E) in HW.
        rewrite suspended_await in H. apply in_app_or in H as [H|H].
        * rewrite tc_slots_suspended in H. eexists; eexists. eapply tc_rel_yielder; eassumption.
        * destruct (run (ac_consume_slots (a_test_consumer d) _) _) as [[s2 [[]|e]]| |]; destruct H.
  Qed.
End TestConsumer.

(** *** Pipes between objects that only wait *)
Section Waiting.
  Context {SP SC A T F PE CE : Type}.
  Variables (P : a_bulk_producer SP T F PE) (R : SP -> list T -> res F PE -> nat -> Prop) (D : SP -> Prop).
  Variables (C : a_bulk_consumer SC T F CE) (M : machine A T F CE) (RC : SC -> A -> nat -> list T -> Prop).
  Hypothesis WP : waiting_producer P R.
  Hypothesis WC : waiting_consumer C RC.

  Lemma pipe_waiting : forall xs l a sp sc, pipe_interrupted P R D C M RC xs l a sp sc ->
    exists ys rest a' kk w, xs = ys ++ rest /\ m_feed M ys a = (a', length ys, None) /\ RC sc a' kk w /\
      ((exists k, R sp rest l k) \/ (exists x rest' k, rest = x :: rest' /\ R sp rest' l k) \/ (exists f, rest = [] /\ l = Ok f /\ D sp)).
  Proof.
    intros xs l a sp sc (ys & rest & a' & Hxs & HF & H). exists ys, rest, a'. destruct H as [H|[H|H]].
    - destruct H as (sp0 & k & kk & w & HR & Hin & HC). exists kk, w. do 3 (split; [assumption|]). left. eapply WP; [exact HR|]. now left.
    - destruct H as (x & rest' & Hr & (k & HR) & sc0 & kk & w & HC & Hin).
      destruct (WC _ _ _ _ sc HC) as (kk' & w' & HC'); [left; eauto|]. exists kk', w'. do 3 (split; [assumption|]). right. left. eauto.
    - destruct H as (f & Hr & Hl & HD & sc0 & kk & w & HC & Hin).
      destruct (WC _ _ _ _ sc HC) as (kk' & w' & HC'); [right; left; eauto|]. exists kk', w'. do 3 (split; [assumption|]). right. right. eauto.
  Qed.

  Lemma bulk_pipe_waiting : forall xs l a sp sc, bulk_pipe_interrupted P R D C M RC xs l a sp sc ->
    exists ys rest n a' kk w, xs = ys ++ rest /\ n <= length rest /\ m_feed M (ys ++ firstn n rest) a = (a', length ys + n, None) /\ RC sc a' kk w /\
      ((exists k, R sp rest l k) \/ (exists f, rest = [] /\ l = Ok f /\ D sp)).
  Proof.
    intros xs l a sp sc (ys & rest & a' & Hxs & HF & H). exists ys, rest. destruct H as [H|[H|[H|H]]].
    - destruct H as (sp0 & k & kk & w & HR & Hin & HC). exists 0, a', kk, w. cbn [firstn]. rewrite app_nil_r, Nat.add_0_r.
      split; [assumption|]. split; [lia|]. do 2 (split; [assumption|]). left. eapply WP; [exact HR|]. auto.
    - destruct H as (zs & rest' & Hr & Hne & HR & sc0 & kk & w & HC & Hin).
      destruct (WC _ _ _ _ sc HC) as (kk' & w' & HC'); [do 5 right; eauto|]. exists 0, a', kk', w'. cbn [firstn]. rewrite app_nil_r, Nat.add_0_r.
      split; [assumption|]. split; [lia|]. do 2 (split; [assumption|]). left. eauto.
    - destruct H as (zs & rest' & n & a'' & Hr & Hn & HF2 & (kk & w & HC) & sp0 & HR & Hin). exists n, a'', kk, w.
      split; [assumption|]. subst rest. split; [rewrite app_length; lia|]. split; [|split; [assumption|]].
      + destruct (@feed_app _ _ _ _ M ys (firstn n (zs ++ rest')) _ _ _ HF) as [_ ->]. rewrite firstn_app. replace (n - length zs) with 0 by lia.
        rewrite firstn_O, app_nil_r, HF2. reflexivity.
      + left. eapply WP; [exact HR|]. do 3 right. left. eauto.
    - destruct H as (f & Hr & Hl & HD & sc0 & kk & w & HC & Hin).
      destruct (WC _ _ _ _ sc HC) as (kk' & w' & HC'); [right; left; eauto|]. exists 0, a', kk', w'. cbn [firstn]. rewrite app_nil_r, Nat.add_0_r.
      split; [assumption|]. split; [lia|]. do 2 (split; [assumption|]). right. eauto.
  Qed.
End Waiting.

(** *** Contracts of objects that answer alike *)
Lemma same_lawful_producer : forall S T F E (P P' : bulk_producer S T F E) R D, same_bulk_producer P P' -> lawful_producer P' R D -> lawful_producer P R D.
Proof.
  intros S T F E P P' R D ((H1 & H2) & H3 & H4 & H5) [L LB]. constructor.
  - constructor.
    + apply (@lp_wf _ _ _ _ _ _ _ L).
    + apply (@lp_forget _ _ _ _ _ _ _ L).
    + intros s x xs l k HR. rewrite H1. exact (lp_produce L HR).
    + intros s l k HR. rewrite H1. exact (lp_produce_last L HR).
    + intros s xs l k HR Hx. rewrite H3. exact (lp_expose L HR Hx).
    + intros s l k HR. rewrite H3. exact (lp_expose_last L HR).
    + intros s xs l k n HR Hk Hn. rewrite H4. exact (lp_consider L n HR Hk Hn).
  - intros s xs l k buf HR Hb. rewrite H5. exact (LB s xs l k buf HR Hb).
Qed.

Lemma same_lawful_consumer : forall S A T F E (C C' : bulk_consumer S T F E) (M : machine A T F E) R D,
  same_bulk_consumer C C' -> lawful_consumer C' M R D -> lawful_consumer C M R D.
Proof.
  intros S A T F E C C' M R D (((H1 & H2) & H3) & H4 & H5 & H6 & H7) [L LB]. constructor.
  - constructor.
    + apply (@lc_wf _ _ _ _ _ _ _ _ _ L).
    + apply (@lc_forget _ _ _ _ _ _ _ _ _ L).
    + intros s a k w x HR. rewrite H1. exact (lc_consume L x HR).
    + intros s a k w f HR. rewrite H2. exact (lc_close L f HR).
    + intros s a k w HR. rewrite H3. exact (lc_flush L HR).
    + intros s a k w HR. rewrite H4. exact (lc_expose L HR).
    + intros s a k w ys HR Hl. rewrite H5. exact (lc_write L ys HR Hl).
    + intros s a k w n HR Hk Hn. rewrite H6. exact (lc_consume_slots L n HR Hk Hn).
  - intros s a k w buf HR Hb. rewrite H7. exact (LB s a k w buf HR Hb).
Qed.

Section TestPipes.
  Context {T F PE CE : Type} (d : T).

  Lemma a_test_producer_lawful : lawful_producer (blocking_bulk_producer (@a_test_producer T F PE)) tp_rel tp_end.
  Proof. eapply same_lawful_producer; [apply same_test_producer|apply test_producer_lawful]. Qed.
  Lemma a_test_consumer_lawful : forall error, lawful_consumer (blocking_bulk_consumer (@a_test_consumer T F CE d)) (failing_machine T F error) (tc_rel error) (tc_end error).
  Proof. intros error. eapply same_lawful_consumer; [apply same_test_consumer|apply test_consumer_lawful]. Qed.

  Lemma failing_feed : forall (error : CE) xs a a' n, m_feed (failing_machine T F error) xs a = (a', n, None) ->
    t_log a' = t_log a ++ xs /\ t_fin a' = t_fin a /\ t_failed a' = t_failed a.
  Proof.
    intros error. induction xs as [|x xs IH]; intros [log fin left b] a' n H; cbn in H.
    - injection H as <- _. cbn. now rewrite app_nil_r.
    - destruct left as [|left]; [discriminate H|]. destruct (m_feed _ xs _) as [[a2 n2] e2] eqn:E1. injection H as -> _ ->.
      destruct (IH _ _ _ E1) as (H1 & H2 & H3). cbn in *. now rewrite H1, <- app_assoc.
  Qed.

  Lemma tp_rel_accessors : forall (s : test_producer_state T F PE) xs l k, tp_rel s xs l k ->
    test_producer_remaining s = Ret xs /\ test_producer_peek_last s = Some l.
  Proof. intros s xs l k (H1 & H2 & _). split; [|exact H2]. exact (fs_not_yet H1). Qed.
  Lemma tp_end_accessors : forall s : test_producer_state T F PE, tp_end s -> test_producer_peek_last s = None.
  Proof. intros s (_ & H). exact H. Qed.

  Lemma test_pipe_suspended : forall items last psizes ppattern error n csizes cpattern fuel sp sc,
    (match psizes with Some l => Forall (fun n => 1 <= n) l | None => True end) ->
    (match csizes with Some l => Forall (fun n => 1 <= n) l | None => True end) ->
    In (sp, sc) (suspended (a_pipe fuel (@a_test_producer T F PE) (@a_test_consumer T F CE d))
      (test_producer_build items last psizes ppattern, test_consumer_build error n csizes cpattern)) ->
    exists ys rest, items = ys ++ rest /\ test_consumer_consumed sc = Ret ys /\ test_consumer_final_consumed sc = None /\ test_consumer_did_error sc = false /\
      ((test_producer_remaining sp = Ret rest /\ test_producer_peek_last sp = Some last) \/
       (exists x rest', rest = x :: rest' /\ test_producer_remaining sp = Ret rest' /\ test_producer_peek_last sp = Some last) \/
       (exists f, rest = [] /\ last = Ok f /\ test_producer_peek_last sp = None)).
  Proof.
    intros items last psizes ppattern error n csizes cpattern fuel sp sc Hp Hc Hin.
    pose proof (pipe_suspended _ _ _ _ _ _ _ a_test_producer_lawful (a_test_consumer_lawful error) _ _ _ _ _ _ _ _ _
      (@tp_rel_build _ _ _ items last psizes ppattern Hp) (@tc_rel_build _ _ _ error n csizes cpattern Hc) _ _ Hin) as HI.
    destruct (pipe_waiting _ _ _ _ _ _ test_producer_waiting (test_consumer_waiting d error) _ _ _ _ _ HI) as (ys & rest & a' & kk & w & Hxs & HF & HC & HP).
    destruct (failing_feed _ _ _ _ _ HF) as (H1 & H2 & H3). cbn in H1, H2, H3.
    destruct (@tc_accessors _ _ _ error sc (CActive a' kk w) HC) as (A1 & A2 & _ & A3 & _). rewrite H1 in A1. rewrite H2 in A2. rewrite H3 in A3.
    exists ys, rest. do 4 (split; [assumption|]). destruct HP as [(k & HR)|[(x & rest' & k & Hr & HR)|(f & Hr & Hl & HD)]].
    - left. eapply tp_rel_accessors; eassumption.
    - right. left. exists x, rest'. split; [assumption|]. eapply tp_rel_accessors; eassumption.
    - right. right. exists f. split; [assumption|]. split; [assumption|]. now apply tp_end_accessors.
  Qed.

  Lemma test_bulk_pipe_suspended : forall items last psizes ppattern error n csizes cpattern fuel sp sc,
    (match psizes with Some l => Forall (fun n => 1 <= n) l | None => True end) ->
    (match csizes with Some l => Forall (fun n => 1 <= n) l | None => True end) ->
    In (sp, sc) (suspended (a_bulk_pipe fuel (@a_test_producer T F PE) (@a_test_consumer T F CE d))
      (test_producer_build items last psizes ppattern, test_consumer_build error n csizes cpattern)) ->
    exists ys rest m, items = ys ++ rest /\ m <= length rest /\ test_consumer_consumed sc = Ret (ys ++ firstn m rest) /\
      test_consumer_final_consumed sc = None /\ test_consumer_did_error sc = false /\
      ((test_producer_remaining sp = Ret rest /\ test_producer_peek_last sp = Some last) \/
       (exists f, rest = [] /\ last = Ok f /\ test_producer_peek_last sp = None)).
  Proof.
    intros items last psizes ppattern error n csizes cpattern fuel sp sc Hp Hc Hin.
    pose proof (bulk_pipe_suspended _ _ _ _ _ _ _ a_test_producer_lawful (a_test_consumer_lawful error) _ _ _ _ _ _ _ _ _
      (@tp_rel_build _ _ _ items last psizes ppattern Hp) (@tc_rel_build _ _ _ error n csizes cpattern Hc) _ _ Hin) as HI.
    destruct (bulk_pipe_waiting _ _ _ _ _ _ test_producer_waiting (test_consumer_waiting d error) _ _ _ _ _ HI) as (ys & rest & m & a' & kk & w & Hxs & Hm & HF & HC & HP).
    destruct (failing_feed _ _ _ _ _ HF) as (H1 & H2 & H3). cbn in H1, H2, H3.
    destruct (@tc_accessors _ _ _ error sc (CActive a' kk w) HC) as (A1 & A2 & _ & A3 & _). rewrite H1 in A1. rewrite H2 in A2. rewrite H3 in A3.
    exists ys, rest, m. do 5 (split; [assumption|]). destruct HP as [(k & HR)|(f & Hr & Hl & HD)].
    - left. eapply tp_rel_accessors; eassumption.
    - right. exists f. split; [assumption|]. split; [assumption|]. now apply tp_end_accessors.
  Qed.
End TestPipes.

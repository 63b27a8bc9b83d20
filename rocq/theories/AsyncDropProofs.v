(** The helpers, the bounded pipes and the scramblers, while they are pending. *)
From Coq Require Import Bool List Arith Lia.
From Verif Require Import Prelude ListFacts Traits Contracts ContractFacts BasicModel AdaptorModel QueueModel QueueSpec QueueProofs ScramblerModel AdaptorSpec BufferedSpec BufferedFacts
  ScramblerProofs AsyncModel AsyncSpec AsyncProofs AsyncAdaptorModel AsyncAdaptorProofs AsyncYieldProofs AsyncSuspendProofs AsyncCancelSpec AsyncCancelProofs.
Import ListNotations.

(** *** Slices *)
Section Slices.
  Context {S A T F E : Type}.

  Section Consumer.
    Variables (C : a_bulk_consumer S T F E) (M : machine A T F E) (R : S -> A -> nat -> list T -> Prop) (D : S -> A -> Prop).
    Hypothesis LC : lawful_consumer (blocking_bulk_consumer C) M R D.

    Lemma consume_full_slice_suspended : forall buf i s a k w, R s a k w -> forall s', In s' (suspended (a_consume_full_slice_from C i buf) s) ->
      exists pre x post a' s0 kk ww, buf = pre ++ x :: post /\ m_feed M pre a = (a', length pre, None) /\ R s0 a' kk ww /\ In s' (suspended (ac_consume C x) s0).
    Proof.
      induction buf as [|x buf IH]; intros i s a k w HR s' Hin; [destruct Hin|]. cbn [a_consume_full_slice_from] in Hin.
      rewrite suspended_await in Hin. apply in_app_or in Hin as [Hin|Hin].
      { exists [], x, buf, a, s, k, w. now repeat split. }
      destruct (lc_consume LC x HR) as (s1 & E1 & HR1). cbn [blocking_bulk_consumer c_consume c_consumer c_buffered blocking_buffered_consumer blocking_consumer] in E1.
      rewrite E1 in Hin. destruct (m_step M x a) as [a1 [[]|e]] eqn:Em; cbn [snd] in *; [|destruct Hin].
      destruct (IH _ _ _ _ _ HR1 _ Hin) as (pre & y & post & a' & s0 & kk & ww & -> & HF & HR0 & H0).
      exists (x :: pre), y, post, a', s0, kk, ww. split; [reflexivity|]. split; [|now split]. cbn. now rewrite Em, HF.
    Qed.

    Lemma bulk_consume_full_slice_suspended : forall fuel pre buf s a a1 k w, m_feed M pre a = (a1, length pre, None) -> R s a1 k w ->
      forall s', In s' (suspended (a_bulk_consume_full_slice_loop fuel C (length pre) (pre ++ buf)) s) ->
      exists pre' post a' s0 kk ww, pre ++ buf = pre' ++ post /\ post <> [] /\ m_feed M pre' a = (a', length pre', None) /\ R s0 a' kk ww /\ In s' (suspended (ac_bulk_consume C post) s0).
    Proof.
      induction fuel as [|fuel IH]; intros pre buf s a a1 k w HF HR s' Hin; [destruct Hin|]. cbn [a_bulk_consume_full_slice_loop] in Hin.
      rewrite app_length in Hin. destruct (Nat.ltb_spec (length pre) (length pre + length buf)) as [Hlt|Hge]; [|destruct Hin].
      unfold attempt in Hin. rewrite after_sync in Hin. rewrite slice_from_ok in Hin by (rewrite app_length; lia). cbn [bind] in Hin.
      rewrite skipn_app, skipn_all, Nat.sub_diag in Hin. cbn [app skipn] in Hin.
      assert (Hne : buf <> []) by (intros ->; cbn in Hlt; lia).
      rewrite suspended_await in Hin. apply in_app_or in Hin as [Hin|Hin].
      { exists pre, buf, a1, s, k, w. now repeat split. }
      destruct (lc_bulk LC buf HR Hne) as [(s1 & n & a2 & E2 & Hn & HF2 & HR1)|(s1 & n & e & a2 & E2 & _)]; cbn [blocking_bulk_consumer c_bulk_consume] in E2;
        rewrite E2 in Hin; cbn [bind] in Hin; [|destruct Hin].
      assert (Hl : length (firstn n buf) = n) by (rewrite firstn_length; lia).
      replace (length pre + n) with (length (pre ++ firstn n buf)) in Hin by (rewrite app_length; lia).
      replace (pre ++ buf) with ((pre ++ firstn n buf) ++ skipn n buf) in * by (rewrite <- app_assoc; now rewrite firstn_skipn).
      eapply IH; [|exact HR1|exact Hin]. destruct (@feed_app _ _ _ _ M pre (firstn n buf) _ _ _ HF) as [_ ->]. rewrite HF2, app_length, Hl. reflexivity.
    Qed.
  End Consumer.

  Section Producer.
    Variables (P : a_bulk_producer S T F E) (R : S -> list T -> res F E -> nat -> Prop) (D : S -> Prop).
    Hypothesis LP : lawful_producer (blocking_bulk_producer P) R D.

    Lemma produce_item_suspended : forall s, suspended (a_produce_item P) s = suspended (ap_produce P) s.
    Proof. intros s. unfold a_produce_item. apply suspended_first. po. Qed.

    Lemma overwrite_full_slice_suspended : forall todo i buf s xs l k, R s xs l k ->
      forall s', In s' (suspended (a_overwrite_full_slice_from P todo i buf) s) ->
      exists ys rest s0 k0, xs = ys ++ rest /\ length ys < todo /\ R s0 rest l k0 /\ In s' (suspended (ap_produce P) s0).
    Proof.
      induction todo as [|todo IH]; intros i buf s xs l k HR s' Hin; [destruct Hin|]. cbn [a_overwrite_full_slice_from] in Hin.
      rewrite suspended_await in Hin. apply in_app_or in Hin as [Hin|Hin].
      { exists [], xs, s, k. split; [reflexivity|]. split; [cbn; lia|]. now split. }
      destruct xs as [|x xs].
      - destruct (lp_produce_last LP HR) as (s1 & E1 & HD). cbn [blocking_bulk_producer p_produce p_producer p_buffered blocking_buffered_producer blocking_producer] in E1.
        rewrite E1 in Hin. destruct l; destruct Hin.
      - destruct (lp_produce LP HR) as (s1 & E1 & HR1). cbn [blocking_bulk_producer p_produce p_producer p_buffered blocking_buffered_producer blocking_producer] in E1.
        rewrite E1 in Hin. unfold attempt in Hin. rewrite after_sync in Hin. destruct (index_set i x buf) as [buf'| |]; cbn [bind] in Hin; try destruct Hin.
        destruct (IH _ _ _ _ _ _ HR1 _ Hin) as (ys & rest & s0 & k0 & -> & Hl & HR0 & H0).
        exists (x :: ys), rest, s0, k0. split; [reflexivity|]. split; [cbn; lia|]. now split.
    Qed.

    Lemma bulk_overwrite_full_slice_suspended : forall fuel n buf s xs l k, R s xs l k -> n <= length buf ->
      forall s', In s' (suspended (a_bulk_overwrite_full_slice_loop fuel P n buf) s) ->
      exists ys rest s0 k0 buf', xs = ys ++ rest /\ n + length ys + length buf' = length buf /\ buf' <> [] /\ R s0 rest l k0 /\ In s' (suspended (ap_bulk_produce P buf') s0).
    Proof.
      induction fuel as [|fuel IH]; intros n buf s xs l k HR Hn s' Hin; [destruct Hin|]. cbn [a_bulk_overwrite_full_slice_loop] in Hin.
      destruct (Nat.ltb_spec n (length buf)) as [Hlt|Hge]; [|destruct Hin].
      unfold attempt in Hin. rewrite after_sync in Hin. rewrite slice_from_ok in Hin by lia. cbn [bind] in Hin.
      assert (Hne : skipn n buf <> []) by (intros E0; apply (f_equal (@length T)) in E0; rewrite skipn_length in E0; cbn in E0; lia).
      rewrite suspended_await in Hin. apply in_app_or in Hin as [Hin|Hin].
      { exists [], xs, s, k, (skipn n buf). split; [reflexivity|]. split; [cbn; rewrite skipn_length; lia|]. split; [exact Hne|]. now split. }
      pose proof (lp_bulk LP (skipn n buf) HR Hne) as HB. cbn [blocking_bulk_producer p_bulk_produce] in HB. rewrite skipn_length in HB.
      destruct xs as [|x xs0].
      - destruct HB as (s1 & E1 & HD). rewrite E1 in Hin. destruct l; destruct Hin.
      - remember (x :: xs0) as xs eqn:Exs. destruct HB as (s1 & m & E1 & Hm1 & Hm2 & HR1). rewrite E1 in Hin. cbn [bind] in Hin.
        set (buf1 := firstn n buf ++ firstn m xs ++ skipn m (skipn n buf)) in Hin.
        assert (Hb1 : length buf1 = length buf) by (unfold buf1; rewrite !app_length, !firstn_length, !skipn_length; lia).
        destruct (IH (n + m) buf1 s1 (skipn m xs) l 0 HR1 ltac:(lia) s' Hin) as (ys & rest & s0 & k0 & buf' & Hy & Hl & Hb & HR0 & H0).
        exists (firstn m xs ++ ys), rest, s0, k0, buf'. split; [rewrite <- app_assoc, <- Hy; symmetry; apply firstn_skipn|].
        split; [rewrite app_length, firstn_length; lia|]. split; [exact Hb|]. now split.
    Qed.
  End Producer.
End Slices.

(** *** Bounded pipes *)
Section AtMost.
  Context {SP SC A T F PE CE : Type}.
  Variables (P : a_bulk_producer SP T F PE) (R : SP -> list T -> res F PE -> nat -> Prop) (D : SP -> Prop).
  Variables (C : a_bulk_consumer SC T F CE) (M : machine A T F CE) (RC : SC -> A -> nat -> list T -> Prop) (DC : SC -> A -> Prop).
  Hypothesis LP : lawful_producer (blocking_bulk_producer P) R D.
  Hypothesis LC : lawful_consumer (blocking_bulk_consumer C) M RC DC.

  Lemma pipe_at_most_suspended : forall todo piped sp sc ys rest l k a a1 kk w, R sp rest l k -> RC sc a1 kk w -> m_feed M ys a = (a1, length ys, None) ->
    forall sp' sc', In (sp', sc') (suspended (a_pipe_at_most_loop todo P C piped) (sp, sc)) ->
    pipe_at_most_interrupted P R D C M RC (length ys + todo) (ys ++ rest) l a sp' sc'.
  Proof.
    induction todo as [|todo IH]; intros piped sp sc ys rest l k a a1 kk w HR HC HF sp' sc' Hin; [destruct Hin|]. cbn [a_pipe_at_most_loop] in Hin.
    rewrite suspended_await, suspended_on_fst, run_on_fst in Hin. apply in_app_or in Hin as [Hin|Hin].
    { apply in_map_iff in Hin as (sq & Eq & Hin). injection Eq as <- <-. exists ys, rest, a1. split; [reflexivity|]. split; [lia|]. split; [exact HF|]. left. exists sp, k, kk, w. now split. }
    destruct rest as [|x rest].
    - destruct (lp_produce_last LP HR) as (sp1 & E1 & HD). cbn [blocking_bulk_producer p_produce p_producer p_buffered blocking_buffered_producer blocking_producer] in E1.
      rewrite E1 in Hin. cbn [bind] in Hin. destruct l as [f|e]; cbn [report_last] in Hin; [|destruct Hin].
      rewrite suspended_await, suspended_on_snd, run_on_snd in Hin. apply in_app_or in Hin as [Hin|Hin].
      + apply in_map_iff in Hin as (sq & Eq & Hin). injection Eq as <- <-. exists ys, [], a1. split; [reflexivity|]. split; [lia|]. split; [exact HF|]. right. right.
        exists f. split; [reflexivity|]. split; [reflexivity|]. split; [exact HD|]. eauto.
      + destruct (run (ac_close C f) sc) as [[sc1 [[]|e]]| |]; cbn in Hin; destruct Hin.
    - destruct (lp_produce LP HR) as (sp1 & E1 & HR1). cbn [blocking_bulk_producer p_produce p_producer p_buffered blocking_buffered_producer blocking_producer] in E1.
      rewrite E1 in Hin. cbn [bind] in Hin. rewrite suspended_await, suspended_on_snd, run_on_snd in Hin. apply in_app_or in Hin as [Hin|Hin].
      + apply in_map_iff in Hin as (sq & Eq & Hin). injection Eq as <- <-. exists ys, (x :: rest), a1. split; [reflexivity|]. split; [lia|]. split; [exact HF|]. right. left.
        exists x, rest. split; [reflexivity|]. split; eauto.
      + destruct (lc_consume LC x HC) as (sc1 & E2 & HC1). cbn [blocking_bulk_consumer c_consume c_consumer c_buffered blocking_buffered_consumer blocking_consumer] in E2.
        rewrite E2 in Hin. cbn [bind] in Hin. destruct (m_step M x a1) as [a2 [[]|e]] eqn:E3; cbn [snd] in Hin; [|destruct Hin].
        replace (ys ++ x :: rest) with ((ys ++ [x]) ++ rest) by (rewrite <- app_assoc; reflexivity).
        replace (length ys + Datatypes.S todo) with (length (ys ++ [x]) + todo) by (rewrite app_length; cbn; lia).
        eapply IH; [exact HR1|exact HC1| |exact Hin]. eapply feed_snoc; eassumption.
  Qed.

  Lemma bulk_pipe_at_most_suspended : forall count fuel sp sc ys rest l k a a1 kk w, R sp rest l k -> RC sc a1 kk w -> m_feed M ys a = (a1, length ys, None) ->
    forall sp' sc', In (sp', sc') (suspended (a_bulk_pipe_at_most_loop fuel P C count (length ys)) (sp, sc)) ->
    bulk_pipe_at_most_interrupted P R D C M RC count (ys ++ rest) l a sp' sc'.
  Proof.
    intros count. induction fuel as [|fuel IH]; intros sp sc ys rest l k a a1 kk w HR HC HF sp' sc' Hin; [destruct Hin|]. cbn [a_bulk_pipe_at_most_loop] in Hin.
    destruct (Nat.ltb_spec (length ys) count) as [Hlt|Hge]; [|destruct Hin].
    rewrite suspended_await, suspended_on_fst, run_on_fst in Hin. apply in_app_or in Hin as [Hin|Hin].
    { apply in_map_iff in Hin as (sq & Eq & Hin). injection Eq as <- <-. exists ys, rest, a1. split; [reflexivity|]. split; [exact Hlt|]. split; [exact HF|]. left. exists sp, k, kk, w. now split. }
    destruct rest as [|x rest].
    - destruct (lp_expose_last LP HR) as (sp1 & E1 & HD). cbn [blocking_bulk_producer p_expose] in E1.
      rewrite E1 in Hin. cbn [bind] in Hin. destruct l as [f|e]; cbn [report_last] in Hin; [|destruct Hin].
      rewrite suspended_await, suspended_on_snd, run_on_snd in Hin. apply in_app_or in Hin as [Hin|Hin].
      + apply in_map_iff in Hin as (sq & Eq & Hin). injection Eq as <- <-. exists ys, [], a1. split; [reflexivity|]. split; [exact Hlt|]. split; [exact HF|]. right. right. right.
        exists f. split; [reflexivity|]. split; [reflexivity|]. split; [exact HD|]. eauto.
      + destruct (run (ac_close C f) sc) as [[sc1 [[]|e]]| |]; cbn in Hin; destruct Hin.
    - destruct (lp_expose LP HR) as (sp1 & zs & rest' & E1 & Hne & Hxs & HR1); [discriminate|]. cbn [blocking_bulk_producer p_expose] in E1.
      rewrite E1 in Hin. cbn [bind] in Hin. unfold attempt in Hin. rewrite after_sync in Hin. unfold csub in Hin.
      destruct (Nat.ltb_spec count (length ys)); [lia|]. cbn [bind] in Hin. rewrite after_sync, slice_to_ok in Hin by lia. cbn [bind] in Hin.
      assert (Hlz0 : length zs <> 0) by (destruct zs; [congruence|cbn; lia]).
      assert (Hfst : firstn (Nat.min (count - length ys) (length zs)) zs = firstn (count - length ys) zs).
      { destruct (Nat.min_spec (count - length ys) (length zs)) as [[_ ->]|[Hle ->]]; [reflexivity|]. now rewrite !firstn_all2 by lia. }
      rewrite Hfst in Hin. set (offer := firstn (count - length ys) zs) in *.
      assert (Hlo : length offer = Nat.min (count - length ys) (length zs)) by (unfold offer; apply firstn_length).
      assert (Hno : offer <> []) by (intros E0; rewrite E0 in Hlo; cbn in Hlo; lia).
      rewrite suspended_await, suspended_on_snd, run_on_snd in Hin. apply in_app_or in Hin as [Hin|Hin].
      + apply in_map_iff in Hin as (sq & Eq & Hin). injection Eq as <- <-. exists ys, (x :: rest), a1. split; [reflexivity|]. split; [exact Hlt|]. split; [exact HF|]. right. left.
        exists zs, rest'. split; [exact Hxs|]. split; [exact Hne|]. split; [exact HR1|]. eauto.
      + destruct (lc_bulk LC offer HC Hno) as [(sc1 & n & a2 & E2 & Hn & HF2 & HC1)|(sc1 & n & e & a2 & E2 & _)]; cbn [blocking_bulk_consumer c_bulk_consume] in E2;
          rewrite E2 in Hin; cbn [bind] in Hin; [|destruct Hin].
        assert (Hfz : firstn n offer = firstn n zs) by (unfold offer; rewrite firstn_firstn; f_equal; lia).
        rewrite Hfz in HF2. assert (Hlz : length (firstn n zs) = n) by (rewrite firstn_length; lia).
        assert (HF' : m_feed M (ys ++ firstn n zs) a = (a2, length (ys ++ firstn n zs), None)).
        { destruct (@feed_app _ _ _ _ M ys (firstn n zs) _ _ _ HF) as [_ ->]. rewrite HF2, app_length, Hlz. reflexivity. }
        rewrite suspended_await, suspended_on_fst, run_on_fst in Hin. apply in_app_or in Hin as [Hin|Hin].
        * apply in_map_iff in Hin as (sq & Eq & Hin). injection Eq as <- <-. exists ys, (x :: rest), a1. split; [reflexivity|]. split; [exact Hlt|]. split; [exact HF|].
          right. right. left. exists zs, rest', n, a2. split; [exact Hxs|]. split; [lia|]. split; [lia|]. split; [rewrite HF2; f_equal; f_equal; lia|]. split; [eauto|]. eauto.
        * assert (Hlen : 1 <= length zs) by lia. assert (Hnz : n <= length zs) by lia.
          destruct (lp_consider LP n HR1 Hlen Hnz) as (sp2 & E3 & HR2). cbn [blocking_bulk_producer p_consider] in E3.
          rewrite E3 in Hin. cbn [bind] in Hin.
          replace (ys ++ x :: rest) with ((ys ++ firstn n zs) ++ skipn n (x :: rest)).
          -- replace (length ys + n) with (length (ys ++ firstn n zs)) in Hin by (rewrite app_length; lia). eapply IH; [exact HR2|exact HC1|exact HF'|exact Hin].
          -- rewrite Hxs, skipn_app. replace (n - length zs) with 0 by lia. cbn [skipn]. rewrite <- app_assoc. f_equal. rewrite app_assoc. f_equal. apply firstn_skipn.
  Qed.
End AtMost.

(** *** Scramblers *)
Lemma skipn_cons_nth : forall T j (xs : list T) x, nth_error xs j = Some x -> skipn j xs = x :: skipn (Datatypes.S j) xs.
Proof. induction j as [|j IH]; intros [|y xs] x H; cbn in *; try discriminate; [now injection H as ->|]. now apply IH. Qed.

Lemma fixed_queued : forall T c (q : fixed T) items k w, fixed_R c q items k w -> queued q items.
Proof.
  intros T c q items k w (Hc & Hcap & _ & Ha & _ & _ & _ & Hr). unfold queued. rewrite Ha.
  enough (G : forall j, map (fun i => nth_error (fx_data q) ((fx_read q + i) mod length (fx_data q))) (seq j (length items - j)) = map Some (skipn j items)).
  { specialize (G 0). rewrite Nat.sub_0_r in G. exact G. }
  assert (Hi : forall i, i < length items -> ring_at q i = nth_error items i).
  { intros i Hi. rewrite Hr by (rewrite app_length; lia). now rewrite nth_error_app1 by lia. }
  clear Hr. intros j. remember (length items - j) as n eqn:En. revert j En. induction n as [|n IH]; intros j En.
  - rewrite skipn_all2 by lia. reflexivity.
  - cbn [seq map]. rewrite (IH (Datatypes.S j)) by lia. destruct (nth_error items j) as [x|] eqn:Ex; [|apply nth_error_None in Ex; lia].
    rewrite (skipn_cons_nth _ _ _ _ Ex). cbn [map]. f_equal. rewrite <- Ex. apply Hi. lia.
Qed.

Section ProducerScrambler.
  Context {S T F E : Type} (dbg : bool).
  Variables (P : a_bulk_producer S T F E) (R : S -> list T -> res F E -> nat -> Prop) (D : S -> Prop).
  Hypothesis L : lawful_producer_core (blocking_bulk_producer P) R D.
  Notation interrupted := (pscr_interrupted P R D).

  Lemma ps_suspended : forall X (f : fut S X) (s : pscr S T F E), suspended (a_ps f) s = map (fun i => ps_with_inner i s) (suspended f (ps_inner s)).
  Proof. intros. unfold a_ps. now rewrite suspended_within by reflexivity. Qed.

  Variables (cap : nat) (ops : list pscr_op).
  Hypothesis LS : lawful_slurp (blocking_bulk_producer P) R D \/ ~ In ScSlurp ops.
  Hypothesis OK : pscr_ops_ok ops.

  Lemma pscr_perform_suspended : forall s buf ys l k, pscr_wf cap ops s buf -> ps_last s = None -> length buf < cap -> R (ps_inner s) ys l k ->
    forall s', In s' (suspended (a_pscr_perform_operation dbg P) s) -> interrupted (buf ++ ys) l s'.
  Proof.
    intros s buf ys l k W Hlast Hlt HR s' Hin. pose proof W as (HQ & Ho & Hi). unfold a_pscr_perform_operation in Hin. rewrite after_get in Hin.
    unfold attempt in Hin. rewrite after_sync in Hin. rewrite debug_assert_true in Hin.
    2: { rewrite (pscr_wf_len W). destruct (pscr_wf_cap W) as [-> _]. now apply Nat.ltb_lt. }
    cbn [bind] in Hin. rewrite after_sync in Hin. rewrite Ho in Hin. unfold index in Hin. destruct (nth_error ops (ps_index s)) as [o|] eqn:En; [|destruct Hin]. cbn [bind] in Hin.
    assert (Hok : pscr_op_ok o). { destruct OK as [Hf _]. rewrite Forall_forall in Hf. apply Hf. eapply nth_error_In; eauto. }
    assert (Hq : queued (ps_buffer s) buf) by (eapply fixed_queued; exact HQ).
    destruct o as [|n|].
    - rewrite suspended_first, ps_suspended in Hin by (unfold a_ps_advance; po). apply in_map_iff in Hin as (i & <- & Hin).
      exists buf. split; [exact Hq|]. left. exists ys, (ps_inner s), k. split; [reflexivity|]. split; [exact HR|]. now left.
    - rewrite suspended_await, ps_suspended in Hin. apply in_app_or in Hin as [Hin|Hin].
      { apply in_map_iff in Hin as (i & <- & Hin). exists buf. split; [exact Hq|]. left. exists ys, (ps_inner s), k. split; [reflexivity|]. split; [exact HR|]. right. now left. }
      unfold a_ps in Hin at 1. rewrite run_within in Hin by reflexivity. cbn in Hok.
      destruct ys as [|y ys0].
      + destruct (lp_expose_last L HR) as (i' & E1 & HD). cbn [blocking_bulk_producer p_expose] in E1. rewrite E1 in Hin. cbn [bind] in Hin. destruct l; destruct Hin.
      + remember (y :: ys0) as ys eqn:Eys.
        destruct (lp_expose L HR) as (i' & zs & rest & E1 & Hne & Hys & HR'); [congruence|]. cbn [blocking_bulk_producer p_expose] in E1.
        rewrite E1 in Hin. cbn [bind] in Hin. rewrite after_sync, slice_to_ok in Hin by lia. cbn [bind] in Hin. rewrite after_sync in Hin. cbn [ps_with_inner ps_buffer] in Hin.
        set (n' := Nat.min (length zs) n) in *.
        destruct (lawful_bulk_enqueue (fixed_lawful cap) (firstn n' zs) HQ) as (b & m & E2 & Hm1 & Hm2 & Hm3 & HQ'). rewrite E2 in Hin. cbn [bind] in Hin.
        rewrite firstn_length in Hm1. assert (Hz : length zs <> 0) by (destruct zs; [congruence|cbn; lia]).
        assert (Hm : 1 <= m).
        { destruct (Nat.eq_dec m 0) as [E0|E0]; [|lia]. apply Hm3 in E0. destruct E0 as [E0|E0]; [lia|].
          apply (f_equal (@length T)) in E0. rewrite firstn_length in E0. cbn in E0. lia. }
        rewrite suspended_first, ps_suspended in Hin by (unfold a_ps_advance; po). apply in_map_iff in Hin as (i & <- & Hin).
        rewrite firstn_firstn in HQ'.
        assert (Hf : firstn (Nat.min m n') zs = firstn m ys).
        { rewrite Nat.min_l by lia. rewrite Hys, firstn_app. replace (m - length zs) with 0 by lia. cbn. now rewrite app_nil_r. }
        rewrite Hf in HQ'. exists (buf ++ firstn m ys). split; [eapply fixed_queued; exact HQ'|]. right. left. exists ys, i', (length zs), m.
        split; [now rewrite <- app_assoc, firstn_skipn|]. split; [exact HR'|]. split; [lia|]. split; [now exists buf|]. exact Hin.
    - rewrite suspended_first, ps_suspended in Hin by (unfold a_ps_advance; po). apply in_map_iff in Hin as (i & <- & Hin).
      exists buf. split; [exact Hq|]. left. exists ys, (ps_inner s), k. split; [reflexivity|]. split; [exact HR|]. right. now right.
  Qed.

  Lemma pscr_fill_suspended : forall fuel s buf xs l, pscr_wf cap ops s buf -> pscr_holds R D s buf xs l ->
    forall s', In s' (suspended (a_pscr_fill_loop dbg fuel P) s) -> interrupted xs l s'.
  Proof.
    induction fuel as [|fuel IH]; intros s buf xs l W HH s' Hin; [destruct Hin|]. cbn [a_pscr_fill_loop] in Hin. rewrite after_get in Hin.
    destruct (ps_last s) as [l'|] eqn:El; [destruct Hin|]. rewrite (pscr_wf_len W) in Hin. destruct (pscr_wf_cap W) as [Hcap Hc]. rewrite Hcap in Hin.
    destruct (Nat.ltb_spec (length buf) cap) as [Hlt|Hge]; [|destruct Hin].
    assert (HH' := HH). unfold pscr_holds in HH'. rewrite El in HH'. destruct HH' as (ys & k & HR & ->).
    rewrite suspended_await in Hin. apply in_app_or in Hin as [Hin|Hin]; [eapply pscr_perform_suspended; eassumption|]. rewrite run_pscr_perform in Hin.
    destruct (@pscr_perform_ok _ _ _ _ dbg (blocking_bulk_producer P) R D L cap ops LS OK s buf ys l k W El Hlt HR) as [(s1 & m & k' & E1 & Hm & W1 & El1 & HR1 & _)|(s1 & -> & W1 & El1 & HD & E1)];
      rewrite E1 in Hin; cbn [bind] in Hin.
    - eapply IH; [exact W1| |exact Hin]. unfold pscr_holds. rewrite El1. exists (skipn m ys), k'. split; [exact HR1|]. now rewrite <- app_assoc, firstn_skipn.
    - rewrite app_nil_r. unfold a_ps_set_last in Hin. destruct l as [f|e]; cbn [bind] in Hin; rewrite after_sync in Hin; (eapply IH; [| |exact Hin]); [exact W1| |exact W1|]; unfold pscr_holds; cbn [ps_with_last ps_last ps_inner]; auto.
  Qed.

  Lemma pscr_fill_queue_suspended : forall fuel s, suspended (a_pscr_fill_queue dbg fuel P) s = suspended (a_pscr_fill_loop dbg fuel P) s.
  Proof. intros fuel s. unfold a_pscr_fill_queue. apply suspended_first. unfold a_ps_set_last. po. Qed.

  Lemma pscr_suspended : forall fuel s xs l k, Datatypes.S cap * length ops <= fuel -> pscr_rel R D cap ops s xs l k ->
    forall s', (In s' (suspended (a_pscr_produce dbg fuel P) s) \/ In s' (suspended (a_pscr_slurp dbg fuel P) s) \/ In s' (suspended (a_pscr_expose dbg fuel P) s) \/
                exists buf, In s' (suspended (ap_bulk_produce (a_pscr_producer dbg fuel P) buf) s)) -> interrupted xs l s'.
  Proof.
    intros fuel s xs l k Hf (buf & W & HH & _).
    assert (Gp : forall s', In s' (suspended (a_pscr_fill_loop dbg fuel P) s) -> interrupted xs l s') by (intros s' Hin; eapply pscr_fill_suspended; eassumption).
    assert (Ge : forall s', In s' (suspended (a_pscr_expose dbg fuel P) s) -> interrupted xs l s').
    { intros s' Hin. unfold a_pscr_expose in Hin. rewrite suspended_first, pscr_fill_queue_suspended in Hin; [auto|]. po. }
    intros s' [Hin|[Hin|[Hin|(b & Hin)]]].
    - unfold a_pscr_produce in Hin. rewrite suspended_first, pscr_fill_queue_suspended in Hin; [auto|]. po.
    - unfold a_pscr_slurp in Hin. rewrite suspended_await, pscr_fill_queue_suspended, run_pscr_fill_queue in Hin. apply in_app_or in Hin as [Hin|Hin]; [auto|].
      destruct (@pscr_fill_queue_ok _ _ _ _ dbg (blocking_bulk_producer P) R D L cap ops LS OK fuel s buf xs l Hf W HH) as [(s1 & -> & E1 & HD & W1 & El)|(s1 & more & E1 & W1 & H1 & Hne & Hc)];
        rewrite E1 in Hin.
      + destruct l as [f|e]; [|destruct Hin]. unfold a_ps_set_last in Hin. rewrite after_sync in Hin.
        rewrite suspended_first, ps_suspended in Hin by po. apply in_map_iff in Hin as (i & <- & Hin).
        exists []. split; [eapply fixed_queued; exact (proj1 W1)|]. right. right. split; [reflexivity|]. eauto.
      + rewrite suspended_first, ps_suspended in Hin by (unfold a_ps_set_last; po). apply in_map_iff in Hin as (i & <- & Hin).
        exists (buf ++ more). split; [eapply fixed_queued; exact (proj1 W1)|]. unfold pscr_holds in H1. destruct (ps_last s1).
        * destruct H1 as (_ & -> & HD). right. right. split; [reflexivity|]. eauto.
        * destruct H1 as (ys & k1 & HR1 & ->). left. exists ys, (ps_inner s1), k1. split; [reflexivity|]. split; [exact HR1|]. right. now right.
    - auto.
    - cbn [a_pscr_producer a_bulk_producer_of ap_bulk_produce] in Hin. rewrite bulk_produce_suspended in Hin. apply in_app_or in Hin as [Hin|Hin]; [auto|].
      destruct (run (a_pscr_expose dbg fuel P) s) as [[s1 [[items|f]|e]]| |]; try rewrite suspended_sync in Hin; destruct Hin.
  Qed.
End ProducerScrambler.

Section ConsumerScrambler.
  Context {S A T F E : Type} (dbg : bool) (x0 : T).
  Variables (C : a_bulk_consumer S T F E) (M : machine A T F E) (R : S -> A -> nat -> list T -> Prop) (D : S -> A -> Prop).
  Hypothesis L : lawful_consumer_core (blocking_bulk_consumer C) M R D.
  Notation interrupted := (cscr_interrupted C M R).

  Lemma cs_suspended : forall X (f : fut S X) (s : cscr S T), suspended (a_cs f) s = map (fun i => cs_with_inner i s) (suspended f (cs_inner s)).
  Proof. intros. unfold a_cs. now rewrite suspended_within by reflexivity. Qed.

  Variables (cap : nat) (ops : list cscr_op).
  Hypothesis OK : cscr_ops_ok ops.

  Lemma cscr_perform_suspended : forall s a pend k w, cscr_rel R cap ops s a pend k w -> pend <> [] ->
    forall s', In s' (suspended (a_cscr_perform_operation dbg x0 C) s) -> interrupted pend a s'.
  Proof.
    intros s a pend k w [W HR] Hne s' Hin. pose proof W as (HQ & Ho & Hi). unfold a_cscr_perform_operation in Hin. rewrite after_get in Hin.
    assert (Hlen : 0 < length pend) by (destruct pend; [congruence|cbn; lia]).
    unfold attempt in Hin. rewrite after_sync in Hin. rewrite debug_assert_true in Hin by (rewrite (cscr_wf_len W); now apply Nat.ltb_lt).
    cbn [bind] in Hin. rewrite after_sync in Hin. rewrite Ho in Hin. unfold index in Hin. destruct (nth_error ops (cs_index s)) as [o|] eqn:En; [|destruct Hin]. cbn [bind] in Hin.
    assert (Hok : cscr_op_ok o). { destruct OK as [Hf _]. rewrite Forall_forall in Hf. apply Hf. eapply nth_error_In; eauto. }
    assert (Hq : queued (cs_buffer s) pend) by (eapply fixed_queued; exact HQ).
    rewrite suspended_first in Hin by po.
    destruct o as [|n|].
    - rewrite after_sync in Hin. destruct pend as [|x pend]; [congruence|].
      destruct (lq_dequeue (fixed_lawful cap) HQ) as (b & E1 & HQ'). rewrite E1 in Hin. cbn [bind] in Hin. rewrite after_sync in Hin. cbn [expect bind] in Hin.
      rewrite cs_suspended in Hin. apply in_map_iff in Hin as (i & <- & Hin). exists [], (x :: pend), a, (cs_inner s). split; [reflexivity|]. split; [discriminate|].
      split; [apply m_forwards_nil|]. left. exists x, pend. split; [reflexivity|]. split; [eapply fixed_queued; exact HQ'|]. now split.
    - rewrite suspended_await, cs_suspended in Hin. apply in_app_or in Hin as [Hin|Hin].
      { apply in_map_iff in Hin as (i & <- & Hin). exists [], pend, a, (cs_inner s). split; [reflexivity|]. split; [exact Hne|]. split; [apply m_forwards_nil|]. right. left.
        split; [exact Hq|]. split; [exact HR|]. now left. }
      unfold a_cs in Hin at 1. rewrite run_within in Hin by reflexivity. cbn in Hok.
      destruct (lc_expose L HR) as [(i' & sl & E1 & Hsl & HR')|(i' & e & a' & E1 & _)]; cbn [blocking_bulk_consumer c_expose] in E1; rewrite E1 in Hin; cbn [bind] in Hin; [|destruct Hin].
      rewrite after_sync in Hin. unfold cs_with_inner, cs_with_buffer in Hin. cbn [cs_inner cs_buffer cs_operations cs_index] in Hin.
      destruct (lawful_bulk_dequeue (fixed_lawful cap) (repeat x0 (Nat.min sl n)) HQ) as (b & m & E2 & Hm1 & Hm2 & Hm3 & HQ').
      rewrite E2 in Hin. cbn [bind] in Hin. rewrite repeat_length in Hm1.
      assert (Hm : 1 <= m).
      { destruct (Nat.eq_dec m 0) as [E0|E0]; [|lia]. apply Hm3 in E0. destruct E0 as [E0|E0]; [congruence|].
        apply (f_equal (@length T)) in E0. rewrite repeat_length in E0. cbn in E0. lia. }
      assert (Hl : length (firstn m pend) = m) by (rewrite firstn_length; lia).
      rewrite firstn_app, firstn_firstn, Nat.min_id, Hl, Nat.sub_diag, app_nil_r in Hin.
      assert (HR2 : R (ac_write C (firstn m pend) i') a sl (firstn m pend)).
      { rewrite <- (overlay_nil (firstn m pend)) at 2. apply (lc_write L _ HR'). lia. }
      rewrite cs_suspended in Hin. apply in_map_iff in Hin as (i & <- & Hin). exists [], pend, a, (ac_write C (firstn m pend) i'). split; [reflexivity|]. split; [exact Hne|].
      split; [apply m_forwards_nil|]. right. right. exists m, sl. split; [lia|]. split; [exact Hm2|]. split; [eapply fixed_queued; exact HQ'|]. split; [exact HR2|exact Hin].
    - rewrite cs_suspended in Hin. apply in_map_iff in Hin as (i & <- & Hin). exists [], pend, a, (cs_inner s). split; [reflexivity|]. split; [exact Hne|]. split; [apply m_forwards_nil|]. right. left.
      split; [exact Hq|]. split; [exact HR|]. now right.
  Qed.

  Lemma cscr_drain_suspended : forall fuel s a pend k w, cscr_rel R cap ops s a pend k w ->
    forall s', In s' (suspended (a_cscr_drain dbg x0 fuel C) s) -> interrupted pend a s'.
  Proof.
    induction fuel as [|fuel IH]; intros s a pend k w HR s' Hin; [destruct Hin|]. cbn [a_cscr_drain] in Hin. rewrite after_get in Hin.
    rewrite (cscr_wf_len (proj1 HR)) in Hin. destruct (Nat.ltb_spec 0 (length pend)) as [Hlt|Hge]; [|destruct Hin].
    assert (Hne : pend <> []) by (intros ->; cbn in Hlt; lia).
    rewrite suspended_await in Hin. apply in_app_or in Hin as [Hin|Hin]; [eapply cscr_perform_suspended; eassumption|]. rewrite run_cscr_perform in Hin.
    destruct (@cscr_perform_ok _ _ _ _ _ x0 (blocking_bulk_consumer C) M R D L cap ops OK dbg s a pend k w HR Hne) as [(s1 & m & a1 & E1 & Hm & Hfw & HR1 & _)|(s1 & e & a1 & E1 & _)];
      rewrite E1 in Hin; [|destruct Hin].
    destruct (IH _ _ _ _ _ HR1 _ Hin) as (out & rest & a2 & s0 & Hp & Hr & Hfw2 & Hcase). exists (firstn m pend ++ out), rest, a2, s0.
    split; [rewrite <- app_assoc, <- Hp; symmetry; apply firstn_skipn|]. split; [exact Hr|]. split; [eapply m_forwards_trans; eassumption|exact Hcase].
  Qed.

  Lemma cscr_consume_suspended : forall fuel x s a pend k w, cscr_rel R cap ops s a pend k w ->
    forall s', In s' (suspended (a_cscr_consume dbg x0 fuel C x) s) -> length pend = cap /\ interrupted pend a s'.
  Proof.
    intros fuel x s a pend k w HR s' Hin. pose proof HR as [W HRi]. pose proof W as (HQ & Ho & Hi). destruct (cscr_wf_cap W) as [_ Hcap]. unfold a_cscr_consume, a_cs_enqueue in Hin. rewrite after_sync in Hin.
    destruct (Nat.eq_dec (length pend) cap) as [Eq|Ne].
    - split; [exact Eq|]. rewrite (lq_enqueue_full (fixed_lawful cap) x HQ Eq) in Hin. cbn [bind] in Hin. rewrite suspended_first in Hin by (unfold attempt; po).
      eapply cscr_drain_suspended; [|exact Hin]. eapply cscr_with_buffer_rel; [exact HR|exact HQ].
    - destruct (lq_enqueue (fixed_lawful cap) x HQ ltac:(lia)) as (b & E1 & HQ'). rewrite E1 in Hin. destruct Hin.
  Qed.

  Lemma cscr_finish_suspended : forall fuel (call : fut S (res unit E)) s a pend k w, Datatypes.S cap * length ops <= fuel -> cscr_rel R cap ops s a pend k w ->
    forall s', In s' (suspended (let! r := a_cscr_drain dbg x0 fuel C in match r with Err e => ret (Err e) | Ok tt => a_cs call end) s) ->
    interrupted pend a s' \/ cscr_finishing M R call pend a s'.
  Proof.
    intros fuel call s a pend k w Hf HR s' Hin. rewrite suspended_await in Hin. apply in_app_or in Hin as [Hin|Hin]; [left; eapply cscr_drain_suspended; eassumption|]. right.
    rewrite run_cscr_drain in Hin.
    destruct (@cscr_drain_ok _ _ _ _ _ x0 (blocking_bulk_consumer C) M R D L cap ops OK dbg fuel s a pend k w Hf HR) as [(s1 & a1 & E1 & Hfw & HR1)|(s1 & e & a1 & E1 & _)];
      rewrite E1 in Hin; [|destruct Hin].
    rewrite cs_suspended in Hin. apply in_map_iff in Hin as (i & <- & Hin). split; [eapply fixed_queued; exact (proj1 (proj1 HR1))|].
    exists a1, (cs_inner s1). split; [exact Hfw|]. split; [exact (proj2 HR1)|exact Hin].
  Qed.

  Lemma cscr_expose_suspended : forall fuel s a pend k w, cscr_rel R cap ops s a pend k w ->
    forall s', In s' (suspended (a_cscr_expose dbg x0 fuel C) s) -> length pend = cap /\ interrupted pend a s'.
  Proof.
    intros fuel s a pend k w HR s' Hin. pose proof HR as [W HRi]. destruct (cscr_wf_cap W) as [Hc Hcap]. unfold a_cscr_expose in Hin. rewrite after_get in Hin.
    rewrite (cscr_wf_len W), Hc in Hin. destruct (Nat.ltb_spec (length pend) cap) as [Hlt|Hge].
    - unfold a_cs_expose_slots in Hin. rewrite suspended_first, suspended_sync in Hin by po. destruct Hin.
    - split; [lia|]. rewrite suspended_first in Hin by (unfold a_cs_expose_slots; po). eapply cscr_drain_suspended; eassumption.
  Qed.
End ConsumerScrambler.

Lemma same_c_do : forall S T F E (C C' : bulk_consumer S T F E), same_bulk_consumer C C' -> forall o s, c_do C o s = c_do C' o s.
Proof.
  intros S T F E C C' (((H1 & H2) & H3) & H4 & H5 & H6 & H7) [x|f| | |ys|n|buf] s; cbn [c_do].
  - now rewrite H1.
  - now rewrite H2.
  - now rewrite H3.
  - now rewrite H4.
  - now rewrite H5.
  - now rewrite H6.
  - now rewrite H7.
Qed.
Lemma same_c_trace : forall S T F E (C C' : bulk_consumer S T F E), same_bulk_consumer C C' -> forall s h s', c_trace C s h s' -> c_trace C' s h s'.
Proof.
  intros S T F E C C' HS s h s' HT. induction HT as [|s o s1 r h s' HD HT IH]; [constructor|]. econstructor; [|exact IH]. now rewrite <- (same_c_do _ _ _ _ _ _ HS).
Qed.

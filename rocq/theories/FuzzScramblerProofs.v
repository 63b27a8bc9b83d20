(** Proofs about the fuzz targets that run something behind a scrambler. *)
From Coq Require Import Bool List Arith Lia.
From Verif Require Import Prelude ListFacts QueueModel QueueSpec QueueProofs Traits Contracts ContractFacts PipeSpec PipeProofs
  BasicModel BasicSpec BasicProofs AdaptorModel AdaptorSpec BufferedSpec BufferedFacts ScramblerModel ScramblerProofs MergeModel
  FuzzModel FuzzSpec FuzzProofs.
Import ListNotations.
Set Implicit Arguments.
Set Warnings "-abstract-large-number".

(** ** Producers *)

Lemma compare_producers_iff : forall (S1 S2 : Type) stop (P1 : producer S1 nat nat nat) (P2 : producer S2 nat nat nat) fuel s1 s2,
  compare_producers fuel stop P1 P2 s1 s2 = Ret tt <->
  exists rs s1' s2', length rs < fuel /\ answers_until stop P1 s1 rs s1' /\ answers P2 s2 rs s2'.
Proof.
  intros S1 S2 stop P1 P2. induction fuel as [|fuel IH]; intros s1 s2; cbn [compare_producers].
  - split; [discriminate|]. intros (rs & _ & _ & H & _). lia.
  - destruct (stop s1) eqn:Es.
    + split; [|reflexivity]. intros _. exists [], s1, s2. splits; [cbn; lia|now constructor|constructor].
    + split.
      * intros H. apply bind_Ret in H as ([s1' r1] & E1 & H). apply bind_Ret in H as ([s2' r2] & E2 & H).
        apply seq_Ret in H as [H1 H2]. apply assert_eq_Ret in H1 as ->.
        apply IH in H2 as (rs & t1 & t2 & Hl & A1 & A2).
        exists (r2 :: rs), t1, t2. splits; [cbn; lia|econstructor; eauto|econstructor; eauto].
      * intros (rs & t1 & t2 & Hl & A1 & A2). inversion A1 as [|? u1 ? r rs' _ E1 A1']; subst; [congruence|].
        inversion A2 as [|? u2 ? ? ? E2 A2']; subst. rewrite E1. cbn [bind]. rewrite E2. cbn [bind].
        rewrite (proj2 (assert_eq_Ret _ _ _) eq_refl). apply IH. exists rs', t1, t2. cbn in Hl. splits; auto. lia.
Qed.

Lemma compare_lawful : forall (S1 S2 : Type) stop (P1 : bulk_producer S1 nat nat nat) (P2 : bulk_producer S2 nat nat nat) R1 D1 R2 D2,
  lawful_producer_core P1 R1 D1 -> lawful_producer_core P2 R2 D2 -> (forall s, D1 s -> stop s = true) ->
  forall xs l fuel s1 s2 k1 k2, R1 s1 xs l k1 -> R2 s2 xs l k2 -> S (length xs) < fuel ->
  compare_producers fuel stop P1 P2 s1 s2 = Ret tt.
Proof.
  intros S1 S2 stop P1 P2 R1 D1 R2 D2 L1 L2 HD. induction xs as [|x xs IH]; intros l [|fuel] s1 s2 k1 k2 H1 H2 Hf; try lia;
    cbn [compare_producers]; destruct (stop s1); try reflexivity.
  - destruct (lp_produce_last L1 H1) as (s1' & E1 & H1'). destruct (lp_produce_last L2 H2) as (s2' & E2 & H2').
    rewrite E1. cbn [bind]. rewrite E2. cbn [bind]. rewrite (proj2 (assert_eq_Ret _ _ _) eq_refl).
    destruct fuel as [|fuel]; [cbn in Hf; lia|]. cbn [compare_producers]. now rewrite HD.
  - destruct (lp_produce L1 H1) as (s1' & E1 & H1'). destruct (lp_produce L2 H2) as (s2' & E2 & H2').
    rewrite E1. cbn [bind]. rewrite E2. cbn [bind]. rewrite (proj2 (assert_eq_Ret _ _ _) eq_refl).
    eapply IH; eauto. cbn in Hf. lia.
Qed.

(** The hypotheses on the operations of a scrambler: [ConsiderProduced(NonZeroUsize)], and enough fuel. *)
Lemma pscr_ready : forall (S T F E : Type) dbg (P : bulk_producer S T F E) R D (x0 : T) s xs l k pat cap fuel,
  lawful_producer_core P R D -> lawful_slurp P R D -> R s xs l k -> 1 <= cap ->
  (forall n, In (ScConsiderProduced n) pat -> 1 <= n) -> Datatypes.S cap * Datatypes.S (length pat) <= fuel ->
  lawful_producer (pscr_producer dbg fuel P) (pscr_rel R D cap (pscr_operations pat)) (pscr_end D) /\
  pscr_rel R D cap (pscr_operations pat) (pscr_new_with_capacity x0 s pat cap) xs l 0.
Proof.
  intros S T F E dbg P R D x0 s xs l k pat cap fuel L LS HR Hc Hn Hf.
  assert (HF : Forall pscr_op_ok pat) by (apply Forall_forall; intros [| |] Hi; cbn; auto).
  split.
  - apply (@pscr_lawful _ _ _ _ dbg P R D L cap (pscr_operations pat)).
    + left; exact LS.
    + now apply pscr_operations_ok.
    + pose proof (pscr_operations_length pat). nia.
  - eapply pscr_new_rel; eauto.
Qed.

Lemma scrambler_capacity_pos : 1 <= scrambler_capacity.
Proof. unfold scrambler_capacity. lia. Qed.

Lemma from_slice_passes : forall dbg fuel input ops,
  (forall n, In (ScConsiderProduced n) ops -> 1 <= n) -> S scrambler_capacity * S (length ops) <= fuel -> length input < fuel ->
  fuzz_from_slice dbg fuel input ops = Ret tt.
Proof.
  intros dbg fuel input ops Hn Hf Hl. unfold fuzz_from_slice, fuzz_pipe_into_vec. cbv zeta.
  destruct (@pscr_ready _ _ _ _ dbg _ _ _ 0 _ _ _ _ ops scrambler_capacity fuel (@from_slice_core nat) (@from_slice_slurp_lawful nat)
    (fs_rel_new input) scrambler_capacity_pos Hn Hf) as [L HR].
  assert (HV : iv_rel (@into_vec_new nat) [] 0 []) by (unfold iv_rel; cbn; auto).
  pose proof (@pipe_lawful _ _ _ _ _ _ _ _ _ _ _ _ _ _ L (into_vec_lawful 0) input fuel _ (Ok tt) 0 _ [] 0 [] HR HV Hl) as H.
  unfold pipe_effect in H. rewrite collect_feed in H. cbn [m_finish collect_machine fst snd app] in H.
  destruct H as (sp' & sc' & E1 & _ & R2). rewrite E1. cbn [bind is_ok assert].
  apply (iv_rel_read (T := nat)) in R2 as [_ ->]. now apply assert_eq_Ret.
Qed.

Lemma tp_end_emitted : forall s : tpro, tp_end s -> test_producer_did_already_emit_last s = true.
Proof. intros s [_ H]. now apply emitted_true. Qed.

Lemma producer_scrambler_passes : forall dbg fuel items last sizes pattern ops,
  Forall (fun n => 1 <= n) sizes -> (forall n, In (ScConsiderProduced n) ops -> 1 <= n) ->
  S scrambler_capacity * S (length ops) <= fuel -> S (length items) < fuel ->
  fuzz_producer_scrambler dbg fuel (arbitrary_pro items last sizes pattern) ops = Ret tt.
Proof.
  intros dbg fuel items last sizes pattern ops Hs Hn Hf Hl. unfold fuzz_producer_scrambler. cbv zeta.
  assert (H0 : tp_rel (arbitrary_pro items last sizes pattern) items last 0) by now apply tp_rel_build.
  destruct (@pscr_ready _ _ _ _ dbg _ _ _ 0 _ _ _ _ ops scrambler_capacity fuel (@test_producer_core nat nat nat)
    (@test_producer_slurp_lawful nat nat nat) H0 scrambler_capacity_pos Hn Hf) as [L HR].
  eapply (compare_lawful _ (@test_producer_core nat nat nat) (lp_core L) tp_end_emitted); eauto.
Qed.

Lemma producer_invariant_passes : forall dbg fuel items last sizes pattern ops,
  Forall (fun n => 1 <= n) sizes -> (forall n, In (ScConsiderProduced n) ops -> 1 <= n) ->
  S scrambler_capacity * S (length ops) <= fuel -> S (length items) < fuel ->
  fuzz_producer_invariant dbg fuel (arbitrary_pro items last sizes pattern) ops = Ret tt.
Proof.
  intros dbg fuel items last sizes pattern ops Hs Hn Hf Hl. unfold fuzz_producer_invariant. cbv zeta.
  assert (H0 : tp_rel (arbitrary_pro items last sizes pattern) items last 0) by now apply tp_rel_build.
  destruct (@pscr_ready _ _ _ _ dbg _ _ _ 0 _ _ _ _ ops scrambler_capacity fuel (@test_producer_core nat nat nat)
    (@test_producer_slurp_lawful nat nat nat) H0 scrambler_capacity_pos Hn Hf) as [L HR].
  pose proof (lp_core L) as L1.
  assert (L2 : lawful_producer_core (invariant_noop_producer (pscr_producer dbg fuel (@test_producer nat nat nat)))
    (pscr_rel tp_rel (@tp_end nat nat nat) scrambler_capacity (pscr_operations ops)) (pscr_end (@tp_end nat nat nat))).
  { destruct L1; constructor; assumption. }
  eapply (compare_lawful _ L1 L2); eauto. intros s. apply tp_end_emitted.
Qed.

(** ** Consumers *)

Section Failing.
  Context {T F E : Type} (error : E).
  Let M := failing_machine T F error.

  Lemma failing_passive : passive M.
  Proof. intros a a'. cbn. destruct (t_left a); [discriminate|]. now intros [= <-]. Qed.

  Lemma failing_forwards : forall xs a a', m_forwards M a xs a' ->
    length xs <= t_left a /\ a' = mk_tstate (t_log a ++ xs) (t_fin a) (t_left a - length xs) (t_failed a).
  Proof.
    intros xs a a' H. apply (m_forwards_feed failing_passive) in H.
    destruct (le_lt_dec (length xs) (t_left a)) as [Hl|Hl].
    - unfold M in H. rewrite (failing_feed error xs a Hl) in H. injection H as <-. auto.
    - unfold M in H. rewrite (failing_feed_err error xs a Hl) in H. discriminate.
  Qed.

  Lemma failing_refuses : forall xs a e a', m_refuses M a xs e a' ->
    t_left a < length xs /\ e = error /\
    a' = t_fail (mk_tstate (t_log a ++ firstn (t_left a) xs) (t_fin a) 0 (t_failed a)).
  Proof.
    intros xs a e a' (evs & ev & a1 & rest & -> & Hne & Hrun & Hev).
    assert (HF : m_forwards M a (ev_items evs) a1) by (exists evs; auto).
    apply failing_forwards in HF as [Hl ->].
    assert (Hz : t_left a - length (ev_items evs) = 0 /\ e = error /\
      a' = t_fail (mk_tstate (t_log a ++ ev_items evs) (t_fin a) (t_left a - length (ev_items evs)) (t_failed a))).
    { destruct ev; cbn in Hev; destruct (t_left a - length (ev_items evs)); try discriminate; injection Hev as <- <-; auto. }
    destruct Hz as (Hz & -> & ->). assert (Hq : t_left a = length (ev_items evs)) by lia.
    rewrite app_length. splits; auto.
    - destruct (ev_item ev ++ rest); [congruence|]. cbn. lia.
    - rewrite Hz, Hq, firstn_app, firstn_all, Nat.sub_diag, firstn_O, app_nil_r. reflexivity.
  Qed.
End Failing.

Section Scrambled.
  Context {S A T F E : Type} (x0 : T) (C : bulk_consumer S T F E) (M : machine A T F E)
    (R : S -> A -> nat -> list T -> Prop) (D : S -> A -> Prop).
  Context (L : lawful_consumer_core C M R D) (cap fuel : nat) (ops : list cscr_op) (OK : cscr_ops_ok ops)
    (Hf : Datatypes.S cap * length ops <= fuel) (dbg : bool).

  (** In debug builds there has to be room in the buffer. *)
  Lemma scrambled_consume : forall x s a pend k w, (dbg = true -> length pend < cap) -> cscr_rel R cap ops s a pend k w ->
    (exists s' out pend' a', c_consume (cscr_consumer dbg x0 fuel C) x s = Ret (s', Ok tt) /\ out ++ pend' = pend ++ [x] /\
       pend' <> [] /\ m_forwards M a out a' /\ cscr_rel R cap ops s' a' pend' 0 []) \/
    (exists s' e a', c_consume (cscr_consumer dbg x0 fuel C) x s = Ret (s', Err e) /\ m_refuses M a pend e a' /\ D (cs_inner s') a').
  Proof.
    intros x s a pend k w Hroom HR. cbn. unfold cscr_consume. pose proof HR as [W _]. pose proof W as (HQ & Ho & Hi).
    destruct (cscr_wf_cap W) as [_ Hcap]. assert (Hc0 : 0 < cap) by apply HQ.
    destruct (Nat.eq_dec (length pend) cap) as [Eq|Ne].
    - destruct dbg; [specialize (Hroom eq_refl); lia|].
      rewrite (lq_enqueue_full (fixed_lawful cap) x HQ Eq). cbn [bind].
      assert (HR1 : cscr_rel R cap ops (cs_with_buffer (cs_buffer s) s) a pend k w) by (eapply cscr_with_buffer_rel; eauto).
      destruct (@cscr_drain_ok _ _ _ _ _ x0 C M R D L cap ops OK false fuel _ a pend k w Hf HR1)
        as [(s1 & a1 & E1 & H1 & HR2)|(s1 & e & a1 & E1 & H1 & HD)]; rewrite E1; cbn [bind].
      + pose proof HR2 as [(HQ2 & _) _].
        destruct (lq_enqueue (fixed_lawful cap) x HQ2 Hc0) as (b & E2 & HQ3). rewrite E2. cbn.
        left. eexists _, pend, [x], a1. splits; [reflexivity|reflexivity|discriminate|exact H1|].
        eapply cscr_with_buffer_rel; eauto.
      + right. exists s1, e, a1. auto.
    - destruct (lq_enqueue (fixed_lawful cap) x HQ ltac:(lia)) as (b & E1 & HQ'). rewrite E1. cbn [bind].
      left. eexists _, [], (pend ++ [x]), a. splits; [reflexivity|reflexivity|now destruct pend|apply m_forwards_nil|].
      eapply cscr_with_buffer_rel; eauto.
  Qed.

  Lemma scrambled_close : forall f s a pend k w, cscr_rel R cap ops s a pend k w ->
    (exists s' a1, m_forwards M a pend a1 /\
       c_close (cscr_consumer dbg x0 fuel C) f s = Ret (s', snd (m_finish M f a1)) /\ D (cs_inner s') (fst (m_finish M f a1))) \/
    (exists s' e a', c_close (cscr_consumer dbg x0 fuel C) f s = Ret (s', Err e) /\ m_refuses M a pend e a' /\ D (cs_inner s') a').
  Proof.
    intros f s a pend k w HR. cbn. unfold cscr_close.
    destruct (@cscr_drain_ok _ _ _ _ _ x0 C M R D L cap ops OK dbg fuel _ a pend k w Hf HR)
      as [(s1 & a1 & E1 & H1 & [_ HR2])|(s1 & e & a1 & E1 & H1 & HD)]; rewrite E1; cbn [bind].
    - destruct (lc_close L f HR2) as (i' & E2 & HD). rewrite E2. left. eexists _, a1. splits; [exact H1|reflexivity|exact HD].
    - right. exists s1, e, a1. auto.
  Qed.

  Lemma scrambled_flush : forall s a pend k w, cscr_rel R cap ops s a pend k w ->
    (exists s' a1, m_forwards M a pend a1 /\
       c_flush (cscr_consumer dbg x0 fuel C) s = Ret (s', snd (m_flush M a1)) /\
       match m_flush M a1 with (a', Ok _) => R (cs_inner s') a' 0 [] | (a', Err _) => D (cs_inner s') a' end) \/
    (exists s' e a', c_flush (cscr_consumer dbg x0 fuel C) s = Ret (s', Err e) /\ m_refuses M a pend e a' /\ D (cs_inner s') a').
  Proof.
    intros s a pend k w HR. cbn. unfold cscr_flush.
    destruct (@cscr_drain_ok _ _ _ _ _ x0 C M R D L cap ops OK dbg fuel _ a pend k w Hf HR)
      as [(s1 & a1 & E1 & H1 & [_ HR2])|(s1 & e & a1 & E1 & H1 & HD)]; rewrite E1; cbn [bind].
    - destruct (lc_flush L HR2) as (i' & E2 & HD). rewrite E2. left. eexists _, a1. splits; [exact H1|reflexivity|].
      destruct (m_flush M a1) as [a' [|]]; exact HD.
    - right. exists s1, e, a1. auto.
  Qed.
End Scrambled.

Lemma cscr_ready : forall (S A T F E : Type) (x0 : T) (C : bulk_consumer S T F E) (M : machine A T F E) R D s a pat cap fuel,
  lawful_consumer_core C M R D -> R s a 0 [] -> 1 <= cap -> (forall n, In (ScConsumeSlots n) pat -> 1 <= n) ->
  Datatypes.S cap * Datatypes.S (length pat) <= fuel ->
  cscr_ops_ok (cscr_operations pat) /\ Datatypes.S cap * length (cscr_operations pat) <= fuel /\
  cscr_rel R cap (cscr_operations pat) (cscr_new_with_capacity x0 s pat cap) a [] 0 [].
Proof.
  intros S A T F E x0 C M R D s a pat cap fuel L HR Hc Hn Hf.
  assert (HF : Forall cscr_op_ok pat) by (apply Forall_forall; intros [| |] Hi; cbn; auto).
  splits; [exact (cscr_operations_ok HF)| |eapply cscr_new_rel; eauto].
  pose proof (cscr_operations_length pat). nia.
Qed.

(** *** IntoVec *)

Section IntoVec.
  Context (fuel : nat) (ops : list cscr_op) (OK : cscr_ops_ok ops) (cap : nat)
    (Hf : S cap * length ops <= fuel) (dbg : bool).
  Let CS := cscr_consumer dbg 0 fuel (into_vec_consumer 0).
  Let L := lc_core (into_vec_lawful 0).

  Lemma collect_forwards : forall xs (a a' : list nat), m_forwards (collect_machine nat unit infallible) a xs a' -> a' = a ++ xs.
  Proof.
    intros xs a a' H. apply m_forwards_feed in H; [|intros b b' [= <-]; reflexivity].
    rewrite collect_feed in H. now injection H as <-.
  Qed.

  Lemma consume_each_runs : forall input s a pend, (dbg = true -> length pend + length input <= cap) ->
    cscr_rel iv_rel cap ops s a pend 0 [] ->
    exists s' a' pend', consume_each CS input s = Ret s' /\ a' ++ pend' = a ++ pend ++ input /\
      cscr_rel iv_rel cap ops s' a' pend' 0 [].
  Proof.
    induction input as [|x input IH]; intros s a pend Hroom HR; cbn [consume_each].
    - exists s, a, pend. rewrite app_nil_r. auto.
    - destruct (@scrambled_consume _ _ _ _ _ 0 _ _ _ _ L cap fuel ops OK Hf dbg x s a pend 0 []) as
        [(s1 & out & pend1 & a1 & E1 & Ho & _ & HF & HR1)|(_ & [] & _)]; auto.
      { intros Hd. specialize (Hroom Hd). cbn in Hroom. lia. }
      fold CS in E1. rewrite E1. cbn [bind is_ok assert]. apply collect_forwards in HF as ->.
      destruct (IH s1 (a ++ out) pend1) as (s' & a' & pend' & E2 & Ho' & HR2).
      { intros Hd. specialize (Hroom Hd). apply (f_equal (@length nat)) in Ho. rewrite !app_length in Ho. cbn in Ho, Hroom. lia. }
      { exact HR1. }
      exists s', a', pend'. splits; auto. rewrite Ho', <- app_assoc. f_equal. rewrite app_assoc, Ho, <- app_assoc. reflexivity.
  Qed.

  Lemma into_vec_passes_with : forall input s, (dbg = true -> length input <= cap) -> cscr_rel iv_rel cap ops s [] [] 0 [] ->
    (let* s := consume_each CS input s in
     let* (s, r) := c_flush CS s in
     assert (is_ok r) ;; assert_eq input (into_vec_into_vec (cs_inner s))) = Ret tt.
  Proof.
    intros input s Hroom HR. destruct (@consume_each_runs input s [] [] Hroom HR) as (s1 & a1 & pend1 & E1 & Ho & HR1).
    rewrite E1. cbn [bind].
    destruct (@scrambled_flush _ _ _ _ _ 0 _ _ _ _ L cap fuel ops OK Hf dbg s1 a1 pend1 0 [] HR1) as [(s2 & a2 & HF & E2 & HR2)|(_ & [] & _)].
    fold CS in E2. rewrite E2. cbn [bind is_ok assert snd collect_machine m_flush] in *. apply collect_forwards in HF as ->.
    apply (iv_rel_read (T := nat)) in HR2 as [_ ->]. rewrite Ho. now apply assert_eq_Ret.
  Qed.
End IntoVec.

Lemma into_vec_passes : forall dbg fuel input capacity ops,
  (forall n, In (ScConsumeSlots n) ops -> 1 <= n) -> S scrambler_capacity * S (length ops) <= fuel ->
  (dbg = true -> length input <= scrambler_capacity) ->
  fuzz_into_vec dbg fuel input capacity ops = Ret tt.
Proof.
  intros dbg fuel input capacity ops Hn Hf Hroom.
  assert (H0 : iv_rel (@into_vec_with_capacity nat (Nat.min capacity 2048)) [] 0 []) by (unfold iv_rel; cbn; auto).
  destruct (@cscr_ready _ _ _ _ _ 0 _ _ _ _ _ _ ops scrambler_capacity fuel (lc_core (into_vec_lawful 0)) H0 scrambler_capacity_pos Hn Hf)
    as (OK & Hf' & HR).
  exact (@into_vec_passes_with fuel _ OK scrambler_capacity Hf' dbg input _ Hroom HR).
Qed.

(** *** TestConsumer *)

Section TestConsumer.
  Context (error : nat) (fuel : nat) (ops : list cscr_op) (OK : cscr_ops_ok ops) (cap : nat)
    (Hf : S cap * length ops <= fuel) (dbg : bool).
  Let C := @test_consumer nat nat nat 0.
  Let M := @failing_machine nat nat nat error.
  Let CS := cscr_consumer dbg 0 fuel C.
  Let L := lc_core (@test_consumer_lawful nat nat nat 0 error).
  Let SR := cscr_rel (@tc_rel nat nat nat error) cap ops.
  Let consume := @scrambled_consume _ _ _ _ _ 0 _ _ _ _ L cap fuel ops OK Hf dbg.
  Let close := @scrambled_close _ _ _ _ _ 0 _ _ _ _ L cap fuel ops OK Hf dbg.
  Let flush := @scrambled_flush _ _ _ _ _ 0 _ _ _ _ L cap fuel ops OK Hf dbg.

  Lemma consumer_scrambler_loop_passes : forall input fin control scrambler log pend left,
    (dbg = true -> length pend + length input <= cap) ->
    tc_rel error control (mk_tstate (log ++ pend) None left false) 0 [] ->
    SR scrambler (mk_tstate log None (left + length pend) false) pend 0 [] ->
    fuzz_consumer_scrambler_loop C CS (@cs_inner _ _) input fin control scrambler = Ret tt.
  Proof.
    induction input as [|x input IH]; intros fin control scrambler log pend left Hroom HC HS;
      cbn [fuzz_consumer_scrambler_loop]; fold C; fold CS.
    - destruct (lc_close L fin HC) as (c1 & E1 & D1). fold C in E1. rewrite E1. cbn [bind].
      destruct (close fin HS) as [(s1 & a1 & HF & E2 & D2)|(s1 & e & a1 & E2 & HF & _)]; fold C CS in E2.
      + apply failing_forwards in HF as [_ ->]. cbn [t_log t_fin t_left t_failed] in *.
        replace (left + length pend - length pend) with left in * by lia.
        rewrite E2. cbn [bind]. rewrite (proj2 (assert_eq_Ret _ _ _) eq_refl). exact (tc_same_ended D1 D2).
      + apply failing_refuses in HF as [HF _]. cbn in HF. lia.
    - destruct (lc_consume L x HC) as (c1 & E1 & D1). fold C in E1. rewrite E1. cbn [bind].
      assert (Hnow : dbg = true -> length pend < cap) by (intros Hd; specialize (Hroom Hd); cbn in Hroom; lia).
      destruct (consume x Hnow HS) as [(s1 & out & pend1 & a1 & E2 & Ho & Hne & HF & HS1)|(s1 & e & a1 & _ & HF & _)]; try fold C CS in E2;
        [|apply failing_refuses in HF as [HF _]; cbn in HF; lia].
      apply failing_forwards in HF as [Hl ->]. cbn [t_log t_fin t_left t_failed] in *.
      assert (Hlen : length out + length pend1 = length pend + 1).
      { apply (f_equal (@length nat)) in Ho. rewrite !app_length in Ho. exact Ho. }
      assert (Hp1 : 1 <= length pend1) by (destruct pend1; [congruence|cbn; lia]).
      cbn [m_step failing_machine t_left snd] in *. destruct left as [|left]; cbn [snd] in *.
      + rewrite E2. cbn [bind].
        destruct (flush HS1) as [(s2 & a2 & HF & _)|(s2 & e & a2 & E3 & HF & D2)]; try fold C CS in E3.
        * apply failing_forwards in HF as [HF _]. cbn in HF. lia.
        * apply failing_refuses in HF as (HF & -> & ->). cbn [t_log t_fin t_left t_failed t_fail] in *. rewrite E3.
          cbn [bind unwrap_err]. rewrite (proj2 (assert_eq_Ret _ _ _) eq_refl).
          eapply tc_same_ended; [exact D1|].
          replace ((log ++ out) ++ firstn (0 + length pend - length out) pend1) with (log ++ pend) in D2; [exact D2|].
          rewrite <- app_assoc. f_equal.
          assert (Hx : firstn (length pend) (out ++ pend1) = firstn (length pend) (pend ++ [x])) by now rewrite Ho.
          rewrite firstn_app, (firstn_all2 out) in Hx by lia. rewrite firstn_app, firstn_all, Nat.sub_diag, firstn_O, app_nil_r in Hx.
          symmetry. exact Hx.
      + rewrite E2. cbn [bind is_ok assert]. apply (IH _ _ _ (log ++ out) pend1 left).
        * intros Hd. specialize (Hroom Hd). cbn in Hroom. lia.
        * rewrite <- app_assoc, Ho, app_assoc. exact D1.
        * replace (left + length pend1) with (S left + length pend - length out) by lia. exact HS1.
  Qed.

  Lemma tc_did_error : forall (s : tcon) a, tc_end error s a -> t_failed a = true -> test_consumer_did_error s = true.
  Proof.
    intros s a HD Hf'. destruct (tc_accessors error s (CEnded a) HD) as (_ & _ & _ & -> & _). exact Hf'.
  Qed.

  Lemma same_con_refl : forall (s : tcon) log, test_consumer_consumed s = Ret log -> assert_same_con s s = Ret tt.
  Proof. intros s log H. apply same_con_iff. exists log. auto. Qed.

  Lemma consumer_invariant_loop_passes : forall input s a pend,
    (dbg = true -> length pend + length input <= cap) -> SR s a pend 0 [] ->
    exists s', fuzz_consumer_invariant_loop CS (invariant_noop_consumer CS) (@cs_inner _ _) input s s = Ret (s', s') /\
      ((exists a' pend', SR s' a' pend' 0 []) \/
       (exists a', tc_end error (cs_inner s') a' /\ test_consumer_did_error (cs_inner s') = true)).
  Proof.
    induction input as [|x input IH]; intros s a pend Hroom HS; cbn [fuzz_consumer_invariant_loop].
    - exists s. split; [reflexivity|]. left. eauto.
    - change (c_consume (invariant_noop_consumer CS)) with (c_consume CS).
      assert (Hnow : dbg = true -> length pend < cap) by (intros Hd; specialize (Hroom Hd); cbn in Hroom; lia).
      destruct (consume x Hnow HS) as [(s1 & out & pend1 & a1 & E2 & Ho & Hne & HF & HS1)|(s1 & e & a1 & E2 & HF & HD)]; fold C CS in E2;
        rewrite E2; cbn [bind]; rewrite (proj2 (assert_eq_Ret _ _ _) eq_refl).
      + destruct (test_consumer_did_error (cs_inner s1)); [exists s1; split; [reflexivity|eauto]|].
        apply (IH s1 a1 pend1); [|exact HS1]. intros Hd. specialize (Hroom Hd).
        apply (f_equal (@length nat)) in Ho. rewrite !app_length in Ho. cbn in Ho, Hroom. lia.
      + assert (Hd : test_consumer_did_error (cs_inner s1) = true).
        { eapply tc_did_error; [exact HD|]. apply failing_refuses in HF as (_ & _ & ->). reflexivity. }
        rewrite Hd. exists s1. split; [reflexivity|]. right. eauto.
  Qed.
End TestConsumer.

Lemma consumer_scrambler_passes : forall dbg fuel error limit sizes pattern ops input fin,
  Forall (fun n => 1 <= n) sizes -> (forall n, In (ScConsumeSlots n) ops -> 1 <= n) ->
  S scrambler_capacity * S (length ops) <= fuel -> (dbg = true -> length input <= scrambler_capacity) ->
  fuzz_consumer_scrambler dbg fuel (arbitrary_con error limit sizes pattern) ops input fin = Ret tt.
Proof.
  intros dbg fuel error limit sizes pattern ops input fin Hs Hn Hf Hroom.
  pose proof (con_start error limit pattern Hs) as H0.
  destruct (@cscr_ready _ _ _ _ _ 0 _ _ _ _ _ _ ops scrambler_capacity fuel (lc_core (@test_consumer_lawful nat nat nat 0 error)) H0
    scrambler_capacity_pos Hn Hf) as (OK & Hf' & HR).
  eapply (@consumer_scrambler_loop_passes error fuel _ OK scrambler_capacity Hf' dbg input fin _ _ [] [] limit).
  - exact Hroom.
  - exact H0.
  - cbn [length]. rewrite Nat.add_0_r. exact HR.
Qed.

Lemma consumer_invariant_passes : forall dbg fuel error limit sizes pattern ops input fin,
  Forall (fun n => 1 <= n) sizes -> (forall n, In (ScConsumeSlots n) ops -> 1 <= n) ->
  S scrambler_capacity * S (length ops) <= fuel -> (dbg = true -> length input <= scrambler_capacity) ->
  fuzz_consumer_invariant dbg fuel (arbitrary_con error limit sizes pattern) ops input fin = Ret tt.
Proof.
  intros dbg fuel error limit sizes pattern ops input fin Hs Hn Hf Hroom.
  pose proof (con_start error limit pattern Hs) as H0.
  destruct (@cscr_ready _ _ _ _ _ 0 _ _ _ _ _ _ ops scrambler_capacity fuel (lc_core (@test_consumer_lawful nat nat nat 0 error)) H0
    scrambler_capacity_pos Hn Hf) as (OK & Hf' & HR).
  unfold fuzz_consumer_invariant, fuzz_consumer_invariant_with. cbv zeta.
  destruct (@consumer_invariant_loop_passes error fuel _ OK scrambler_capacity Hf' dbg input _ _ [] Hroom HR) as (s1 & E1 & H1).
  rewrite E1. cbn [bind].
  destruct (test_consumer_did_error (cs_inner s1)) eqn:Ed; cbn [negb bind].
  - destruct H1 as [(a' & pend' & [_ HI])|(a' & HD & _)].
    + destruct (@tc_read _ _ (CActive a' 0 []) HI) as (H2 & _). exact (same_con_refl _ H2).
    + destruct (@tc_read _ _ (CEnded a') HD) as (H2 & _). exact (same_con_refl _ H2).
  - destruct H1 as [(a' & pend' & HS)|(a' & _ & H1)]; [|congruence].
    change (c_close (invariant_noop_consumer (cscr_consumer dbg 0 fuel (@test_consumer nat nat nat 0))))
      with (c_close (cscr_consumer dbg 0 fuel (@test_consumer nat nat nat 0))).
    destruct (@scrambled_close _ _ _ _ _ 0 _ _ _ _ (lc_core (@test_consumer_lawful nat nat nat 0 error)) _ fuel _ OK Hf' dbg fin _ _ _ _ _ HS)
      as [(s2 & a1 & _ & E2 & D2)|(s2 & e & a1 & E2 & _ & D2)]; rewrite E2; cbn [bind];
      rewrite (proj2 (assert_eq_Ret _ _ _) eq_refl); cbn [bind];
      match type of D2 with tc_end _ _ ?a => destruct (@tc_read _ _ (CEnded a) D2) as (H2 & _) end; exact (same_con_refl _ H2).
Qed.

(** *** Debug builds *)

Section Debug.
  Context {S A T F E : Type} (x0 : T) (C : bulk_consumer S T F E) (M : machine A T F E)
    (R : S -> A -> nat -> list T -> Prop) (D : S -> A -> Prop).
  Context (L : lawful_consumer_core C M R D) (cap fuel : nat) (ops : list cscr_op) (OK : cscr_ops_ok ops)
    (Hf : Datatypes.S cap * length ops <= fuel).

  Lemma debug_room : forall x s a pend k w, length pend < cap -> cscr_rel R cap ops s a pend k w ->
    exists s', c_consume (cscr_consumer true x0 fuel C) x s = Ret (s', Ok tt) /\ cscr_rel R cap ops s' a (pend ++ [x]) 0 [].
  Proof.
    intros x s a pend k w Hlt HR. cbn. unfold cscr_consume. pose proof HR as [W _]. pose proof W as (HQ & Ho & Hi).
    destruct (lq_enqueue (fixed_lawful cap) x HQ Hlt) as (b & E1 & HQ'). rewrite E1. cbn [bind].
    eexists. split; [reflexivity|]. eapply cscr_with_buffer_rel; eauto.
  Qed.

  Lemma debug_full : forall x s a pend k w, length pend = cap -> cscr_rel R cap ops s a pend k w ->
    (forall e a', ~ m_refuses M a pend e a') -> c_consume (cscr_consumer true x0 fuel C) x s = Panic.
  Proof. intros x s a pend k w Hl HR Hno. cbn. eapply cscr_consume_panics; eauto. Qed.
End Debug.

Section DebugTargets.
  Context (fuel : nat) (ops : list cscr_op) (OK : cscr_ops_ok ops) (cap : nat) (Hf : S cap * length ops <= fuel).

  Lemma into_vec_loop_panics : forall input s a pend, length pend <= cap -> cap < length pend + length input ->
    cscr_rel iv_rel cap ops s a pend 0 [] ->
    consume_each (cscr_consumer true 0 fuel (into_vec_consumer 0)) input s = Panic.
  Proof.
    induction input as [|x input IH]; intros s a pend Hl Hlen HR; [cbn in Hlen; lia|]. cbn [consume_each].
    destruct (Nat.eq_dec (length pend) cap) as [Eq|Ne].
    - rewrite (@debug_full _ _ _ _ _ 0 _ _ _ _ (lc_core (into_vec_lawful 0)) cap fuel ops OK Hf x s a pend 0 [] Eq HR); [reflexivity|].
      intros [].
    - destruct (@debug_room _ _ _ _ _ 0 (into_vec_consumer 0) _ cap fuel ops x s a pend 0 [] ltac:(lia) HR) as (s' & E1 & HR').
      rewrite E1. cbn [bind is_ok assert]. apply (IH s' a (pend ++ [x])); auto; rewrite app_length; cbn in *; lia.
  Qed.

  Context (error : nat).
  Let C := @test_consumer nat nat nat 0.
  Let L := lc_core (@test_consumer_lawful nat nat nat 0 error).
  Let SR := cscr_rel (@tc_rel nat nat nat error) cap ops.

  Lemma not_refused : forall (a : tstate nat nat) (pend : list nat), length pend <= t_left a ->
    forall e a', ~ m_refuses (failing_machine nat nat error) a pend e a'.
  Proof. intros a pend Hl e a' H. apply failing_refuses in H as [H _]. lia. Qed.

  Lemma consumer_scrambler_loop_panics : forall input fin control scrambler log pend left,
    length pend <= cap -> cap < length pend + length input -> cap <= left + length pend ->
    tc_rel error control (mk_tstate (log ++ pend) None left false) 0 [] ->
    SR scrambler (mk_tstate log None (left + length pend) false) pend 0 [] ->
    fuzz_consumer_scrambler_loop C (cscr_consumer true 0 fuel C) (@cs_inner _ _) input fin control scrambler = Panic.
  Proof.
    induction input as [|x input IH]; intros fin control scrambler log pend left Hl Hlen Hleft HC HS; [cbn in Hlen; lia|].
    cbn [fuzz_consumer_scrambler_loop].
    destruct (lc_consume L x HC) as (c1 & E1 & D1). unfold C. rewrite E1. cbn [bind].
    destruct (Nat.eq_dec (length pend) cap) as [Eq|Ne].
    - rewrite (@debug_full _ _ _ _ _ 0 _ _ _ _ L cap fuel ops OK Hf x _ _ pend 0 [] Eq HS) by (apply not_refused; cbn; lia).
      destruct (snd _) as [[]|]; reflexivity.
    - destruct (@debug_room _ _ _ _ _ 0 C _ cap fuel ops x _ _ pend 0 [] ltac:(lia) HS) as (s' & E2 & HR').
      cbn [m_step failing_machine t_left snd] in *. destruct left as [|left]; [lia|]. cbn [snd].
      unfold C in E2. rewrite E2. cbn [bind is_ok assert]. fold C. apply (IH _ _ _ log (pend ++ [x]) left); try (rewrite app_length; cbn in *; lia).
      + cbn [t_log t_fin t_failed] in D1. rewrite <- app_assoc in D1. exact D1.
      + rewrite app_length. cbn [length]. replace (left + (length pend + 1)) with (S left + length pend) by lia. exact HR'.
  Qed.

  Lemma consumer_invariant_loop_panics : forall input s a pend,
    length pend <= cap -> cap < length pend + length input -> cap <= t_left a -> t_failed a = false ->
    SR s a pend 0 [] ->
    fuzz_consumer_invariant_loop (cscr_consumer true 0 fuel C) (invariant_noop_consumer (cscr_consumer true 0 fuel C))
      (@cs_inner _ _) input s s = Panic.
  Proof.
    induction input as [|x input IH]; intros s a pend Hl Hlen Hleft Hfail HS; [cbn in Hlen; lia|].
    cbn [fuzz_consumer_invariant_loop]. fold C.
    destruct (Nat.eq_dec (length pend) cap) as [Eq|Ne].
    - unfold C. rewrite (@debug_full _ _ _ _ _ 0 _ _ _ _ L cap fuel ops OK Hf x _ _ pend 0 [] Eq HS) by (apply not_refused; lia).
      reflexivity.
    - change (c_consume (invariant_noop_consumer (cscr_consumer true 0 fuel C))) with (c_consume (cscr_consumer true 0 fuel C)).
      destruct (@debug_room _ _ _ _ _ 0 C _ cap fuel ops x _ _ pend 0 [] ltac:(lia) HS) as (s' & E2 & HR').
      rewrite E2. cbn [bind]. rewrite (proj2 (assert_eq_Ret _ _ _) eq_refl).
      assert (Hd : test_consumer_did_error (cs_inner s') = false).
      { destruct HR' as [_ HI]. destruct (tc_accessors error _ (CActive a 0 []) HI) as (_ & _ & _ & -> & _). exact Hfail. }
      rewrite Hd. apply (IH s' a (pend ++ [x])); auto; rewrite app_length; cbn in *; lia.
  Qed.
End DebugTargets.

Lemma into_vec_panics : forall fuel input capacity ops,
  (forall n, In (ScConsumeSlots n) ops -> 1 <= n) -> S scrambler_capacity * S (length ops) <= fuel ->
  scrambler_capacity < length input -> fuzz_into_vec true fuel input capacity ops = Panic.
Proof.
  intros fuel input capacity ops Hn Hf Hlen.
  assert (H0 : iv_rel (@into_vec_with_capacity nat (Nat.min capacity 2048)) [] 0 []) by (unfold iv_rel; cbn; auto).
  destruct (@cscr_ready _ _ _ _ _ 0 _ _ _ _ _ _ ops scrambler_capacity fuel (lc_core (into_vec_lawful 0)) H0 scrambler_capacity_pos Hn Hf)
    as (OK & Hf' & HR).
  unfold fuzz_into_vec, fuzz_into_vec_with. cbv zeta.
  rewrite (@into_vec_loop_panics fuel _ OK scrambler_capacity Hf' input _ [] [] (Nat.le_0_l _) Hlen HR). reflexivity.
Qed.

Lemma consumer_targets_panic : forall fuel error limit sizes pattern ops input fin,
  Forall (fun n => 1 <= n) sizes -> (forall n, In (ScConsumeSlots n) ops -> 1 <= n) ->
  S scrambler_capacity * S (length ops) <= fuel -> scrambler_capacity < length input -> scrambler_capacity <= limit ->
  fuzz_consumer_scrambler true fuel (arbitrary_con error limit sizes pattern) ops input fin = Panic /\
  fuzz_consumer_invariant true fuel (arbitrary_con error limit sizes pattern) ops input fin = Panic.
Proof.
  intros fuel error limit sizes pattern ops input fin Hs Hn Hf Hlen Hlimit.
  pose proof (con_start error limit pattern Hs) as H0.
  destruct (@cscr_ready _ _ _ _ _ 0 _ _ _ _ _ _ ops scrambler_capacity fuel (lc_core (@test_consumer_lawful nat nat nat 0 error)) H0
    scrambler_capacity_pos Hn Hf) as (OK & Hf' & HR).
  split.
  - eapply (@consumer_scrambler_loop_panics fuel _ OK scrambler_capacity Hf' error input fin _ _ [] [] limit);
      cbn [length]; rewrite ?Nat.add_0_r; auto; apply Nat.le_0_l.
  - unfold fuzz_consumer_invariant, fuzz_consumer_invariant_with. cbv zeta.
    rewrite (@consumer_invariant_loop_panics fuel _ OK scrambler_capacity Hf' error input _ (mk_tstate [] None limit false) []
      (Nat.le_0_l _) Hlen Hlimit eq_refl HR).
    reflexivity.
Qed.

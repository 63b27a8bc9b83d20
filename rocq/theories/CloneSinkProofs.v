(** Proofs about the consumer scrambler with an arbitrary [Clone]. *)
From Coq Require Import Bool List Arith Lia.
From Verif Require Import Prelude ListFacts QueueModel QueueSpec QueueProofs Traits Contracts ContractFacts BasicModel AdaptorSpec BufferedSpec BufferedFacts
  CloneModel CloneSpec CloneProofs ScramblerModel ScramblerProofs CloneScramblerSpec CloneScramblerProofs CloneSinkModel CloneSinkSpec.
Import ListNotations.
Set Implicit Arguments.

Section Passing.
  Context {W A T F E : Type} (clone : T -> W -> W * option T) (M : machine A T F E).

  Lemma passes_nothing : forall a pend w, passes clone M a pend w pend a w.
  Proof. intros a pend w. exists [], []. splits; [reflexivity|constructor|apply m_forwards_nil]. Qed.

  Lemma passes_more : forall a pend w q a1 w1 q2 a2 w2, passes clone M a pend w q a1 w1 -> passes clone M a1 q w1 q2 a2 w2 -> passes clone M a pend w q2 a2 w2.
  Proof.
    intros a pend w q a1 w1 q2 a2 w2 (o1 & y1 & -> & H1 & H2) (o2 & y2 & -> & H3 & H4). exists (o1 ++ o2), (y1 ++ y2). rewrite app_assoc.
    splits; [reflexivity|eapply clones_app; eauto|eapply m_forwards_trans; eauto].
  Qed.

  Lemma passes_unwinds : forall a pend w q a1 w1 q2 a2 w2, passes clone M a pend w q a1 w1 -> unwinds clone M a1 q w1 q2 a2 w2 -> unwinds clone M a pend w q2 a2 w2.
  Proof. intros a pend w q a1 w1 q2 a2 w2 H1 (q3 & w3 & H2 & H3). exists q3, w3. split; [eapply passes_more; eauto|exact H3]. Qed.

  Lemma passes_balks : forall a pend w q a1 w1 e a2 w2, passes clone M a pend w q a1 w1 -> balks clone M a1 q w1 e a2 w2 -> balks clone M a pend w e a2 w2.
  Proof. intros a pend w q a1 w1 e a2 w2 H1 (q3 & a3 & w3 & H2 & H3). exists q3, a3, w3. split; [eapply passes_more; eauto|exact H3]. Qed.

  Lemma fixed_bulk_dequeue_into : forall cap b items k v len w, fixed_R cap b items k v -> items <> [] -> 1 <= len ->
    exists b' w' ys r, q_bulk_dequeue_into clone (fixed_queue T) len b w = Ret (b', w', (ys, r)) /\
      match r with
      | Done m => 1 <= m <= len /\ m <= length items /\ clones clone (firstn m items) w ys w' /\ fixed_R cap b' (skipn m items) k v
      | Unwound => exists m, m <= len /\ breaks clone (firstn m items) w ys w' /\ fixed_R cap b' items k v
      end.
  Proof.
    intros cap b items k v len w HQ Hne Hlen. unfold q_bulk_dequeue_into.
    destruct (lq_expose_items (fixed_lawful cap) HQ Hne) as (b1 & zs & rest & E1 & Hzs & Hi & HQ1). rewrite E1. cbn [bind].
    assert (Hz : 1 <= length zs) by (destruct zs; [congruence|cbn; lia]).
    set (m := Nat.min (length zs) len). assert (Hm : 1 <= m) by lia.
    assert (Hpre : firstn m zs = firstn m items). { rewrite Hi, firstn_app. replace (m - length zs) with 0 by lia. cbn. now rewrite app_nil_r. }
    rewrite Hpre. assert (Hml : m <= length items) by (rewrite Hi, app_length; lia).
    destruct (clone_each clone (firstn m items) w) as [w' [ys []]] eqn:Ec.
    - apply clone_each_true in Ec. destruct (lq_consider_dequeued (fixed_lawful cap) m HQ1) as (b2 & E2 & HQ2); [lia|]. rewrite E2. cbn [bind].
      eexists _, w', ys, _. split; [reflexivity|]. cbn. splits; auto; lia.
    - apply clone_each_false in Ec. eexists _, w', ys, _. split; [reflexivity|]. cbn. exists m. splits; auto. lia.
  Qed.
End Passing.

Section Consumer.
  Context {W S A T F E : Type} (clone : T -> W -> W * option T) (x0 : T) (C : bulk_consumer S T F E) (M : machine A T F E)
    (R : S -> A -> nat -> list T -> Prop) (D : S -> A -> Prop).
  Hypothesis L : lawful_consumer_core C M R D.
  Variables (cap : nat) (ops : list cscr_op).
  Hypothesis OK : cscr_ops_ok ops.

  Lemma t_perform : forall dbg s a pend k v w, cscr_rel R cap ops s a pend k v -> pend <> [] ->
    (exists s' q a' w', cscr_perform_operation_cloning clone dbg C s w = Ret (s', w', Done (Ok tt)) /\
       passes clone M a pend w q a' w' /\ cscr_rel R cap ops s' a' q k v /\ cs_index s' = (cs_index s + 1) mod length ops /\
       (length q < length pend \/ (q = pend /\ nth_error ops (cs_index s) = Some ScFlush))) \/
    (exists s' pend' a' w', cscr_perform_operation_cloning clone dbg C s w = Ret (s', w', Unwound) /\
       unwinds clone M a pend w pend' a' w' /\ cscr_rel R cap ops s' a' pend' k v) \/
    (exists s' e a' w', cscr_perform_operation_cloning clone dbg C s w = Ret (s', w', Done (Err e)) /\
       balks clone M a pend w e a' w' /\ D (cs_inner s') a').
  Proof.
    intros dbg s a pend k v w [Wf HR] Hne. pose proof Wf as (HQ & Ho & Hi).
    assert (Hlen : 0 < length pend) by (destruct pend; [congruence|cbn; lia]).
    unfold cscr_perform_operation_cloning. rewrite debug_assert_true.
    2: { rewrite (cscr_wf_len Wf). now apply Nat.ltb_lt. }
    rewrite Ho. unfold index. destruct (nth_error ops (cs_index s)) as [o|] eqn:En.
    2: { apply nth_error_None in En. lia. }
    cbn [bind].
    assert (Hok : cscr_op_ok o).
    { destruct OK as [Hf _]. rewrite Forall_forall in Hf. apply Hf. eapply nth_error_In; eauto. }
    destruct o as [|n|].
    - destruct pend as [|x pend]; [congruence|]. rewrite fixed_deq_clones.
      destruct (lq_dequeue (fixed_lawful cap) HQ) as (b & E1 & HQ'). rewrite E1. cbn [bind].
      destruct (clone x w) as [w' [y|]] eqn:Ec; cbn [bind expect].
      + unfold cs_with_buffer. cbn [cs_inner].
        destruct (lc_consume L y HR) as (i' & E2 & HR'). rewrite E2. cbn [bind].
        destruct (m_step M y a) as [a' [[]|e]] eqn:Em; cbn [snd] in *.
        * left. eexists _, pend, a', w'.
          erewrite cscr_advance_ok with (cap := cap) (ops := ops) (pend := pend) (k := k) (w := v).
          2: { unfold cscr_wf, cs_with_inner; cbn; splits; auto. }
          cbn [bind]. splits; [reflexivity| | |cbn; auto|left; cbn; lia].
          -- exists [x], [y]. splits; [reflexivity|econstructor; [exact Ec|constructor]|]. exists [EvItem y]. cbn. rewrite Em. auto.
          -- split; [|exact HR']. unfold cscr_wf, cs_with_inner; cbn [cs_buffer cs_operations cs_index]; splits; auto. apply Nat.mod_upper_bound. lia.
        * right; right. eexists _, e, a', w'. splits; [reflexivity| |exact HR'].
          exists (x :: pend), a, w. splits; [apply passes_nothing|discriminate|]. right; right. exists 1, [y]. split.
          -- cbn. econstructor; [exact Ec|constructor].
          -- exists [], (EvItem y), a, []. cbn. splits; auto. discriminate.
      + right; left. eexists _, pend, a, w'. splits; [reflexivity| |].
        * exists (x :: pend), w. split; [apply passes_nothing|]. right. eauto.
        * split; [|exact HR]. unfold cscr_wf; cbn; auto.
    - cbn in Hok.
      destruct (lc_expose L HR) as [(i' & sl & E1 & Hsl & HR')|(i' & e & a' & E1 & Hall & HD)]; rewrite E1; cbn [bind].
      + unfold cs_with_inner, cs_with_buffer. cbn [cs_inner cs_buffer cs_operations cs_index].
        destruct (@fixed_bulk_dequeue_into W T clone cap _ pend k v (Nat.min sl n) w HQ Hne) as (b & w' & ys & r & E2 & Hr); [lia|].
        rewrite E2. cbn [bind]. destruct r as [m|].
        * destruct Hr as (Hm & Hm2 & Hcl & HQ'). pose proof (clones_length Hcl) as Hl. rewrite firstn_length, Nat.min_l in Hl by lia.
          assert (HR2 : R (c_write C ys i') a sl ys).
          { rewrite <- (overlay_nil ys) at 2. apply (lc_write L _ HR'). lia. }
          pose proof (lc_consume_slots L m HR2 ltac:(lia) ltac:(lia)) as HR3.
          rewrite (firstn_all2 ys) in HR3 by lia.
          destruct (m_feed M ys a) as [[a' m'] [e|]] eqn:Em.
          -- destruct HR3 as (i3 & E3 & HD). rewrite E3. cbn [bind].
             right; right. eexists _, e, a', w'. splits; [reflexivity| |exact HD].
             exists pend, a, w. splits; [apply passes_nothing|exact Hne|]. right; right. exists m, ys. split; [exact Hcl|]. eapply m_feed_refuses; eassumption.
          -- destruct HR3 as (i3 & E3 & HR4). rewrite E3. cbn [bind].
             left. eexists _, (skipn m pend), a', w'.
             erewrite cscr_advance_ok with (cap := cap) (ops := ops) (pend := skipn m pend) (k := k) (w := v).
             2: { unfold cscr_wf; cbn [cs_buffer cs_operations cs_index]; splits; auto. }
             cbn [bind]. splits; [reflexivity| | |cbn; auto|left; rewrite skipn_length; lia].
             ++ exists (firstn m pend), ys. splits; [now rewrite firstn_skipn|exact Hcl|]. eapply m_feed_forwards; eassumption.
             ++ split; [|cbn; exact (lc_forget L HR4)]. unfold cscr_wf; cbn [cs_buffer cs_operations cs_index]; splits; auto. apply Nat.mod_upper_bound. lia.
        * destruct Hr as (m & Hm & Hbr & HQ'). pose proof (breaks_length Hbr) as Hl. rewrite firstn_length in Hl.
          right; left. eexists _, pend, a, w'. splits; [reflexivity| |].
          -- exists pend, w. split; [apply passes_nothing|]. left. eauto.
          -- split; [unfold cscr_wf; cbn [cs_buffer cs_operations cs_index]; splits; auto|]. cbn [cs_inner].
             eapply (lc_forget L). apply (lc_write L _ HR'). lia.
      + right; right. eexists _, e, a', w. splits; [reflexivity| |exact HD].
        exists pend, a, w. splits; [apply passes_nothing|exact Hne|]. auto.
    - destruct (lc_flush L HR) as (i' & E1 & HR'). rewrite E1. cbn [bind].
      destruct (m_flush M a) as [a' [[]|e]] eqn:Em; cbn [snd] in *.
      + left. eexists _, pend, a', w.
        erewrite cscr_advance_ok with (cap := cap) (ops := ops) (pend := pend) (k := k) (w := v).
        2: { unfold cscr_wf, cs_with_inner; cbn; splits; auto. }
        cbn [bind]. splits; [reflexivity| | |cbn; auto|right; auto].
        * exists [], []. splits; [reflexivity|constructor|]. apply m_flush_forwards. exact Em.
        * split; [|exact HR']. unfold cscr_wf, cs_with_inner; cbn [cs_buffer cs_operations cs_index]; splits; auto. apply Nat.mod_upper_bound. lia.
      + right; right. eexists _, e, a', w. splits; [reflexivity| |exact HR'].
        exists pend, a, w. splits; [apply passes_nothing|exact Hne|]. left. auto.
  Qed.

  Lemma t_drain_fuel : forall dbg j o, nth_error ops j = Some o -> o <> ScFlush ->
    forall fuel s a pend k v w, cscr_rel R cap ops s a pend k v ->
    length pend * length ops + cyc_dist (length ops) (cs_index s) j < fuel ->
    (exists s' a' w', cscr_drain_cloning clone dbg fuel C s w = Ret (s', w', Done (Ok tt)) /\ passes clone M a pend w [] a' w' /\ cscr_rel R cap ops s' a' [] k v) \/
    (exists s' pend' a' w', cscr_drain_cloning clone dbg fuel C s w = Ret (s', w', Unwound) /\ unwinds clone M a pend w pend' a' w' /\ cscr_rel R cap ops s' a' pend' k v) \/
    (exists s' e a' w', cscr_drain_cloning clone dbg fuel C s w = Ret (s', w', Done (Err e)) /\ balks clone M a pend w e a' w' /\ D (cs_inner s') a').
  Proof.
    intros dbg j o Hj Ho. assert (Hjl : j < length ops) by (apply nth_error_Some; congruence).
    induction fuel as [|fuel IH]; intros s a pend k v w HR Hf; [exfalso; exact (Nat.nlt_0_r _ Hf)|].
    cbn [cscr_drain_cloning]. pose proof HR as [Wf _]. rewrite (cscr_wf_len Wf).
    destruct (Nat.ltb_spec 0 (length pend)) as [Hlt|Hge].
    2: { left. exists s, a, w. destruct pend; [|cbn in Hge; lia]. splits; auto. apply passes_nothing. }
    destruct (@t_perform dbg s a pend k v w HR) as [(s1 & q & a1 & w1 & E1 & Hp & HR1 & Hi & Hprog)|[(s1 & pend' & a1 & w1 & E1 & Hu & HR1)|(s1 & e & a1 & w1 & E1 & Hb & HD)]].
    { intros ->. cbn in Hlt. lia. }
    - rewrite E1. cbn [bind].
      assert (Hfuel : length q * length ops + cyc_dist (length ops) (cs_index s1) j < fuel).
      { rewrite Hi. destruct Hprog as [H|[-> H]].
        - pose proof (@cyc_dist_lt (length ops) ((cs_index s + 1) mod length ops) j).
          assert (length q * length ops + length ops <= length pend * length ops); [|lia].
          replace (length pend) with (length q + (length pend - length q)) by lia. rewrite Nat.mul_add_distr_r. apply Nat.add_le_mono_l.
          rewrite <- (Nat.mul_1_l (length ops)) at 1. apply Nat.mul_le_mono_r. lia.
        - enough (cyc_dist (length ops) ((cs_index s + 1) mod length ops) j < cyc_dist (length ops) (cs_index s) j) by lia.
          apply cyc_dist_step; [apply Wf|lia|]. intros Eq. rewrite Eq in H. congruence. }
      destruct (IH s1 a1 q k v w1 HR1 Hfuel) as [(s' & a' & w' & E2 & H2 & H3)|[(s' & pend' & a' & w' & E2 & H2 & H3)|(s' & e & a' & w' & E2 & H2 & H3)]].
      + left. exists s', a', w'. splits; auto. eapply passes_more; eauto.
      + right; left. exists s', pend', a', w'. splits; auto. eapply passes_unwinds; eauto.
      + right; right. exists s', e, a', w'. splits; auto. eapply passes_balks; eauto.
    - rewrite E1. cbn [bind]. right; left. eauto 8.
    - rewrite E1. cbn [bind]. right; right. eauto 8.
  Qed.

  Variable fuel : nat.
  Hypothesis Hfuel : Datatypes.S cap * length ops <= fuel.

  Lemma t_drain : forall dbg s a pend k v w, cscr_rel R cap ops s a pend k v ->
    (exists s' a' w', cscr_drain_cloning clone dbg fuel C s w = Ret (s', w', Done (Ok tt)) /\ passes clone M a pend w [] a' w' /\ cscr_rel R cap ops s' a' [] k v) \/
    (exists s' pend' a' w', cscr_drain_cloning clone dbg fuel C s w = Ret (s', w', Unwound) /\ unwinds clone M a pend w pend' a' w' /\ cscr_rel R cap ops s' a' pend' k v) \/
    (exists s' e a' w', cscr_drain_cloning clone dbg fuel C s w = Ret (s', w', Done (Err e)) /\ balks clone M a pend w e a' w' /\ D (cs_inner s') a').
  Proof.
    intros dbg s a pend k v w HR. destruct OK as [_ (j & o & Hj & Ho)].
    assert (Hjl : j < length ops) by (apply nth_error_Some; congruence).
    apply (@t_drain_fuel dbg j o Hj Ho); [exact HR|].
    pose proof (@cyc_dist_lt (length ops) (cs_index s) j). destruct HR as [Wf _]. destruct (cscr_wf_cap Wf) as [_ Hc].
    enough (length pend * length ops <= cap * length ops) by (cbn in Hfuel; lia). apply Nat.mul_le_mono_r. exact Hc.
  Qed.

  Definition t_rel (s : cscr S T) (b : babs A T) : Prop := b_rel (cscr_rel R cap ops) (cscr_end D) s b.

  Lemma t_forget : forall s a pend k v, cscr_rel R cap ops s a pend k v -> cscr_rel R cap ops s a pend 0 [].
  Proof. intros s a pend k v [(HQ & H1) H2]. split; [|exact H2]. split; [|exact H1]. exact (lq_forget (fixed_lawful cap) HQ). Qed.

  Lemma t_expose : forall dbg s a pend k v w, cscr_rel R cap ops s a pend k v ->
    (exists s' w' n q a', cscr_expose_cloning clone dbg fuel C s w = Ret (s', w', Done (Ok n)) /\
       makes_room clone M cap a pend w q a' w' /\ 1 <= n /\ length q + n <= cap /\ cscr_rel R cap ops s' a' q n []) \/
    (exists s' w' pend' a', cscr_expose_cloning clone dbg fuel C s w = Ret (s', w', Unwound) /\ length pend = cap /\ unwinds clone M a pend w pend' a' w' /\ cscr_rel R cap ops s' a' pend' 0 []) \/
    (exists s' w' e a', cscr_expose_cloning clone dbg fuel C s w = Ret (s', w', Done (Err e)) /\ balks clone M a pend w e a' w' /\ D (cs_inner s') a').
  Proof.
    intros dbg s a pend k v w HR. unfold cscr_expose_cloning. pose proof HR as [Wf _]. pose proof Wf as (HQ & Ho & Hi).
    destruct (cscr_wf_cap Wf) as [Hc Hcap]. assert (Hc0 : 0 < cap) by apply HQ.
    rewrite (cscr_wf_len Wf), Hc. destruct (Nat.ltb_spec (length pend) cap) as [Hlt|Hge].
    - destruct (lq_expose_slots (fixed_lawful cap) HQ Hlt) as (b & n & E1 & Hn1 & Hn2 & HQ'). rewrite E1. cbn.
      left. eexists _, w, n, pend, a. splits; [reflexivity|left; auto|auto|auto|]. eapply cscr_with_buffer_rel; eauto.
    - destruct (@t_drain dbg s a pend k v w HR) as [(s1 & a1 & w1 & E1 & H1 & HR2)|[(s1 & pend' & a1 & w1 & E1 & Hu & HR1)|(s1 & e & a1 & w1 & E1 & Hb & HD)]]; rewrite E1; cbn [bind].
      + pose proof HR2 as [(HQ2 & _) _].
        destruct (lq_expose_slots (fixed_lawful cap) HQ2 Hc0) as (b & n & E2 & Hn1 & Hn2 & HQ'). rewrite E2. cbn.
        left. eexists _, w1, n, [], a1. splits; [reflexivity|right; splits; auto; lia|auto|auto|]. eapply cscr_with_buffer_rel; eauto.
      + right; left. exists s1, w1, pend', a1. splits; auto; [lia|eapply t_forget; eauto].
      + right; right. eauto 8.
  Qed.

  Lemma t_step : forall o s b w, t_rel s b -> b_permitted b o ->
    exists s' w' r b', t_do clone false fuel C o s w = Ret (s', w', r) /\ t_answer clone M cap b w o r b' w' /\ t_rel s' b'.
  Proof.
    intros o s [a pend k v|a] w HR HP; [|destruct HP]. cbn in HR. destruct o; cbn [t_do b_permitted c_permitted] in *.
    - unfold cscr_consume_cloning. pose proof HR as [Wf _]. pose proof Wf as (HQ & Ho & Hi).
      destruct (cscr_wf_cap Wf) as [_ Hcap]. assert (Hc0 : 0 < cap) by apply HQ.
      destruct (Nat.eq_dec (length pend) cap) as [Eq|Ne].
      + rewrite (lq_enqueue_full (fixed_lawful cap) x HQ Eq). cbn [bind].
        assert (HR1 : cscr_rel R cap ops (cs_with_buffer (cs_buffer s) s) a pend k v) by (eapply cscr_with_buffer_rel; eauto).
        destruct (@t_drain false _ a pend k v w HR1) as [(s1 & a1 & w1 & E1 & H1 & HR2)|[(s1 & pend' & a1 & w1 & E1 & Hu & HR2)|(s1 & e & a1 & w1 & E1 & Hb & HD)]]; rewrite E1; cbn [bind].
        * pose proof HR2 as [(HQ2 & _) _].
          destruct (lq_enqueue (fixed_lawful cap) x HQ2 Hc0) as (b & E2 & HQ3). rewrite E2. cbn [bind].
          unfold debug_assert. cbn [andb bind].
          eexists _, w1, _, (BActive a1 [x] 0 []). splits; [reflexivity| |].
          -- cbn. exists [], a1. split; [right; auto|reflexivity].
          -- cbn. eapply cscr_with_buffer_rel; eauto.
        * eexists _, w1, _, (BActive a1 pend' 0 []). splits; [reflexivity|cbn; split; [exact Eq|eauto]|cbn; eapply t_forget; eauto].
        * eexists _, w1, _, (BEnded a1). splits; [reflexivity|cbn; eauto|exact HD].
      + destruct (lq_enqueue (fixed_lawful cap) x HQ ltac:(lia)) as (b & E1 & HQ'). rewrite E1. cbn [bind].
        eexists _, w, _, (BActive a (pend ++ [x]) 0 []). splits; [reflexivity| |].
        * cbn. exists pend, a. split; [left; splits; auto; lia|reflexivity].
        * cbn. eapply cscr_with_buffer_rel; eauto.
    - unfold cscr_close_cloning.
      destruct (@t_drain false s a pend k v w HR) as [(s1 & a1 & w1 & E1 & H1 & HR2)|[(s1 & pend' & a1 & w1 & E1 & Hu & HR2)|(s1 & e & a1 & w1 & E1 & Hb & HD)]]; rewrite E1; cbn [bind].
      + destruct HR2 as [_ HR2]. destruct (lc_close L f HR2) as (i' & E2 & HD). rewrite E2. cbn [bind].
        eexists _, w1, _, (BEnded (fst (m_finish M f a1))). splits; [reflexivity|cbn; left; eauto|exact HD].
      + eexists _, w1, _, (BActive a1 pend' 0 []). splits; [reflexivity|cbn; eauto|cbn; eapply t_forget; eauto].
      + eexists _, w1, _, (BEnded a1). splits; [reflexivity|cbn; right; eauto|exact HD].
    - unfold cscr_flush_cloning.
      destruct (@t_drain false s a pend k v w HR) as [(s1 & a1 & w1 & E1 & H1 & HR2)|[(s1 & pend' & a1 & w1 & E1 & Hu & HR2)|(s1 & e & a1 & w1 & E1 & Hb & HD)]]; rewrite E1; cbn [bind].
      + destruct HR2 as [(HQ & Ho & Hi) HR2]. destruct (lc_flush L HR2) as (i' & E2 & HR3). rewrite E2. cbn [bind].
        destruct (m_flush M a1) as [a' [[]|e]] eqn:Em; cbn [snd].
        * eexists _, w1, _, (BActive a' [] k v). splits; [reflexivity|cbn; eauto|]. cbn. split; [|exact HR3]. unfold cscr_wf; cbn; auto.
        * eexists _, w1, _, (BEnded a'). splits; [reflexivity|cbn; right; eauto|exact HR3].
      + eexists _, w1, _, (BActive a1 pend' 0 []). splits; [reflexivity|cbn; eauto|cbn; eapply t_forget; eauto].
      + eexists _, w1, _, (BEnded a1). splits; [reflexivity|cbn; left; eauto|exact HD].
    - destruct (@t_expose false s a pend k v w HR) as [(s1 & w1 & n & q & a1 & E1 & H1 & H2 & H3 & HR2)|[(s1 & w1 & pend' & a1 & E1 & He & Hu & HR2)|(s1 & w1 & e & a1 & E1 & Hb & HD)]]; rewrite E1; cbn [bind].
      + eexists _, w1, _, (BActive a1 q n []). splits; [reflexivity|cbn; eauto 8|exact HR2].
      + eexists _, w1, _, (BActive a1 pend' 0 []). splits; [reflexivity|cbn; eauto|exact HR2].
      + eexists _, w1, _, (BEnded a1). splits; [reflexivity|cbn; eauto|exact HD].
    - eexists _, w, _, _. splits; [reflexivity|cbn; auto|]. cbn. eapply cscr_write_ok; eauto.
    - destruct (@cscr_consume_slots_ok S A T E R cap ops n s a pend k v HR) as (s' & E1 & H1 & H2); [lia|]. rewrite E1. cbn [bind].
      eexists _, w, _, _. splits; [reflexivity|cbn; auto|exact H2].
    - unfold cscr_bulk_consume_cloning.
      destruct (@t_expose false s a pend k v w HR) as [(s1 & w1 & n & q & a1 & E1 & H1 & H2 & H3 & HR2)|[(s1 & w1 & pend' & a1 & E1 & He & Hu & HR2)|(s1 & w1 & e & a1 & E1 & Hb & HD)]]; rewrite E1; cbn [bind].
      + set (m := Nat.min n (length buf)).
        assert (Hm : 1 <= m <= length buf) by (destruct buf; [congruence|cbn in *; lia]).
        destruct (clone_each clone (firstn m buf) w1) as [w2 [ys []]] eqn:Ec.
        * apply clone_each_true in Ec. pose proof (clones_length Ec) as Hl. rewrite firstn_length, Nat.min_l in Hl by lia.
          pose proof (@cscr_write_ok S A T R cap ops ys s1 a1 q n [] HR2 ltac:(lia)) as H6. rewrite overlay_nil in H6.
          destruct (@cscr_consume_slots_ok S A T E R cap ops m _ a1 q n _ H6) as (s2 & E2 & H7 & H8); [lia|].
          rewrite (firstn_all2 ys) in H8 by lia. rewrite E2. cbn [bind].
          eexists _, w2, _, (BActive a1 (q ++ ys) 0 []). splits; [reflexivity| |cbn; eapply t_forget; eauto].
          cbn. exists q, a1, w1, ys. splits; auto; lia.
        * apply clone_each_false in Ec. pose proof (breaks_length Ec) as Hl. rewrite firstn_length in Hl.
          pose proof (@cscr_write_ok S A T R cap ops ys s1 a1 q n [] HR2 ltac:(lia)) as H6.
          cbn [bind]. eexists _, w2, _, (BActive a1 q 0 []). splits; [reflexivity| |cbn; eapply t_forget; eauto].
          cbn. right. exists m, q, a1, w1, ys. splits; auto; lia.
      + eexists _, w1, _, (BActive a1 pend' 0 []). splits; [reflexivity|cbn; left; eauto|exact HR2].
      + eexists _, w1, _, (BEnded a1). splits; [reflexivity|cbn; eauto|exact HD].
  Qed.
End Consumer.

(** ** What becomes of each item *)
Section Fates.
  Context {W A T F E : Type} (clone : T -> W -> W * option T) (M : machine A T F E) (cap : nat).

  Lemma Forall2_app_right : forall X Y (P : X -> Y -> Prop) xs ys zs, Forall2 P xs (ys ++ zs) ->
    exists us vs, xs = us ++ vs /\ Forall2 P us ys /\ Forall2 P vs zs.
  Proof.
    intros X Y P xs ys zs. revert xs. induction ys as [|y ys IH]; intros xs H; cbn in H.
    - exists [], xs. auto.
    - inversion H as [|x ? xs1 ? H1 H2]; subst. destruct (IH _ H2) as (us & vs & -> & H3 & H4). exists (x :: us), vs. cbn. auto.
  Qed.

  Lemma passes_fates : forall a pend w q a' w' po, passes clone M a pend w q a' w' -> Forall2 (descends clone) po pend ->
    exists handled fs po1, po = handled ++ po1 /\ Forall2 (meets clone) handled fs /\ gone fs = 0 /\ m_forwards M a (came fs) a' /\ Forall2 (descends clone) po1 q.
  Proof.
    intros a pend w q a' w' po (out & ys & -> & Hc & Hm) Hp. apply Forall2_app_right in Hp as (us & vs & -> & H1 & H2).
    destruct (@all_came _ _ clone us ys) as (H3 & H4 & H5).
    { eapply Forall2_compose; [exact H1|]. eapply clones_descends, Hc. }
    exists us, (map Came ys), vs. splits; auto. now rewrite H4.
  Qed.

  Lemma unwinds_fates : forall a pend w q a' w' po, unwinds clone M a pend w q a' w' -> Forall2 (descends clone) po pend ->
    exists handled fs po1, po = handled ++ po1 /\ Forall2 (meets clone) handled fs /\ gone fs <= 1 /\ m_forwards M a (came fs) a' /\ Forall2 (descends clone) po1 q.
  Proof.
    intros a pend w q a' w' po (q1 & w1 & Hpass & Hend) Hp.
    destruct (passes_fates Hpass Hp) as (hd & fs & po1 & -> & H1 & H2 & H3 & H4). destruct Hend as [(n & ys & _ & ->)|(x & -> & _)].
    - exists hd, fs, po1. splits; auto. lia.
    - inversion H4 as [|x1 ? po2 ? H5 H6]; subst. exists (hd ++ [x1]), (fs ++ [Gone]), po2. splits; auto.
      + now rewrite <- app_assoc.
      + apply Forall2_app; [exact H1|repeat constructor].
      + rewrite gone_app, H2. cbn. lia.
      + rewrite came_app. cbn. now rewrite app_nil_r.
  Qed.

  Lemma room_fates : forall a pend w q a' w' po, makes_room clone M cap a pend w q a' w' -> Forall2 (descends clone) po pend ->
    exists handled fs po1, po = handled ++ po1 /\ Forall2 (meets clone) handled fs /\ gone fs = 0 /\ m_forwards M a (came fs) a' /\ Forall2 (descends clone) po1 q.
  Proof.
    intros a pend w q a' w' po [(_ & -> & -> & ->)|(_ & -> & H)] Hp.
    - exact (passes_fates (passes_nothing clone M a pend w) Hp).
    - exact (passes_fates H Hp).
  Qed.

  Lemma balks_fates : forall a pend w e a' w' po, balks clone M a pend w e a' w' -> Forall2 (descends clone) po pend ->
    exists handled fs rest a1, po = handled ++ rest /\ Forall2 (meets clone) handled fs /\ gone fs = 0 /\ m_forwards M a (came fs) a1 /\ t_end M rest a1 a'.
  Proof.
    intros a pend w e a' w' po (q & a1 & w1 & Hpass & Hq & Hend) Hp.
    destruct (passes_fates Hpass Hp) as (hd & fs & po1 & -> & H1 & H2 & H3 & H4). destruct Hend as [(Hfl & _)|[(Hall & _)|(n & ys & Hc & Href)]].
    - exists hd, fs, po1, a1. splits; auto. right. eauto.
    - destruct q as [|x q]; [congruence|]. exists hd, fs, po1, a1. splits; auto. right. exists e. right. exists x. apply Hall.
    - destruct Href as (evs & ev & a2 & rest & -> & _ & Hrun & Hev).
      assert (Hsplit : exists q1 w2, clones clone (firstn (length (ev_items evs)) q) w1 (ev_items evs) w2 /\ q = firstn (length (ev_items evs)) q ++ q1).
      { destruct (@clones_prefix _ _ clone (length (ev_items evs)) _ _ _ _ Hc) as (w2 & Hc1 & _).
        rewrite firstn_app, Nat.sub_diag, firstn_all, firstn_O, app_nil_r in Hc1. rewrite firstn_firstn in Hc1.
        pose proof (clones_length Hc) as Hl. rewrite firstn_length, !app_length in Hl. rewrite Nat.min_l in Hc1 by lia.
        exists (skipn (length (ev_items evs)) q), w2. split; [exact Hc1|]. now rewrite firstn_skipn. }
      destruct Hsplit as (q1 & w2 & Hc1 & Hq1).
      assert (Hpass2 : passes clone M a1 q w1 q1 a2 w2) by (exists (firstn (length (ev_items evs)) q), (ev_items evs); splits; auto; exists evs; auto).
      destruct (passes_fates Hpass2 H4) as (hd2 & fs2 & po2 & -> & K1 & K2 & K3 & K4).
      exists (hd ++ hd2), (fs ++ fs2), po2, a2. splits.
      + now rewrite app_assoc.
      + now apply Forall2_app.
      + rewrite gone_app. lia.
      + rewrite came_app. eapply m_forwards_trans; eauto.
      + right. exists e. destruct ev as [y|]; cbn in Hev; eauto.
  Qed.

  Definition t_written (b : babs A T) : list T := match b with BActive _ _ _ v => v | BEnded _ => [] end.

  Lemma t_fates_step : forall a pend k v w o (r : caught (cans E)) b' w' po,
    b_permitted (BActive a pend k v) o -> t_answer clone M cap (BActive a pend k v) w o r b' w' -> Forall2 (descends clone) po pend ->
    exists handled fs rest, (forall h, po ++ t_given v ((o, r) :: h) = handled ++ rest ++ t_given (t_written b') h) /\
      Forall2 (meets clone) handled fs /\ gone fs <= t_torn [(o, r)] /\
      match b' with
      | BActive a' pend' _ _ => m_forwards M a (came fs) a' /\ Forall2 (descends clone) rest pend'
      | BEnded a' => exists a1, m_forwards M a (came fs) a1 /\ t_end M rest a1 a'
      end.
  Proof.
    intros a pend k v w o r b' w' po HP Ha Hp.
    assert (Balk : forall e, (exists a', balks clone M a pend w e a' w' /\ b' = BEnded a') -> (forall h, t_given v ((o, r) :: h) = t_given [] h) ->
      exists handled fs rest, (forall h, po ++ t_given v ((o, r) :: h) = handled ++ rest ++ t_given (t_written b') h) /\
        Forall2 (meets clone) handled fs /\ gone fs <= t_torn [(o, r)] /\
        match b' with
        | BActive a' pend' _ _ => m_forwards M a (came fs) a' /\ Forall2 (descends clone) rest pend'
        | BEnded a' => exists a1, m_forwards M a (came fs) a1 /\ t_end M rest a1 a'
        end).
    { intros e (a' & Hb & ->) Hg. destruct (balks_fates Hb Hp) as (hd & fs & rest & a1 & -> & H1 & H2 & H3 & H4).
      exists hd, fs, rest. splits; auto; [|lia|eauto]. intros h. now rewrite Hg, <- app_assoc. }
    assert (Unw : (exists pend' a', unwinds clone M a pend w pend' a' w' /\ b' = BActive a' pend' 0 []) -> r = Unwound -> (forall h, t_given v ((o, r) :: h) = t_given [] h) ->
      exists handled fs rest, (forall h, po ++ t_given v ((o, r) :: h) = handled ++ rest ++ t_given (t_written b') h) /\
        Forall2 (meets clone) handled fs /\ gone fs <= t_torn [(o, r)] /\
        match b' with
        | BActive a' pend' _ _ => m_forwards M a (came fs) a' /\ Forall2 (descends clone) rest pend'
        | BEnded a' => exists a1, m_forwards M a (came fs) a1 /\ t_end M rest a1 a'
        end).
    { intros (pend' & a' & Hu & ->) -> Hg. destruct (unwinds_fates Hu Hp) as (hd & fs & po1 & -> & H1 & H2 & H3 & H4).
      exists hd, fs, po1. splits; auto. intros h. now rewrite Hg, <- app_assoc. }
    destruct o as [x|f| | |ys|n|buf]; cbn [b_permitted c_permitted] in HP.
    - destruct r as [[[u|e]|r|r|]|]; cbn [t_answer] in Ha; try contradiction.
      + destruct Ha as (q & a' & Hr & ->). destruct (room_fates Hr Hp) as (hd & fs & po1 & -> & H1 & H2 & H3 & H4).
        exists hd, fs, (po1 ++ [x]). splits; auto; [|lia|].
        * intros h. cbn. now rewrite <- !app_assoc.
        * apply Forall2_app; [exact H4|apply Forall2_self].
      + apply (Balk e Ha). reflexivity.
      + destruct Ha as [_ Ha]. apply (Unw Ha); reflexivity.
    - destruct r as [[r|r|r|]|]; cbn [t_answer] in Ha; try contradiction.
      + destruct Ha as [(a1 & Hpass & -> & ->)|(e & -> & Hb)].
        * destruct (passes_fates Hpass Hp) as (hd & fs & po1 & -> & H1 & H2 & H3 & H4). inversion H4; subst.
          exists hd, fs, []. splits; auto; [|lia|].
          -- intros h. cbn. now rewrite app_nil_r.
          -- exists a1. split; [exact H3|]. left. eauto.
        * apply (Balk e Hb). reflexivity.
      + apply (Unw Ha); reflexivity.
    - destruct r as [[[u|e]|r|r|]|]; cbn [t_answer] in Ha; try contradiction.
      + destruct Ha as (a1 & a' & Hpass & Hfl & ->). destruct (passes_fates Hpass Hp) as (hd & fs & po1 & -> & H1 & H2 & H3 & H4). inversion H4; subst.
        exists hd, fs, []. splits; auto; [|lia|].
        * intros h. cbn. now rewrite app_nil_r.
        * rewrite <- (app_nil_r (came fs)). eapply m_forwards_trans; [exact H3|]. apply m_flush_forwards. exact Hfl.
      + destruct Ha as [Hb|(a1 & a' & Hpass & Hfl & ->)].
        * apply (Balk e Hb). reflexivity.
        * destruct (passes_fates Hpass Hp) as (hd & fs & po1 & -> & H1 & H2 & H3 & H4). inversion H4; subst.
          exists hd, fs, []. splits; auto; [|lia|].
          -- intros h. cbn. now rewrite app_nil_r.
          -- exists a1. split; [exact H3|]. right. eauto.
      + apply (Unw Ha); reflexivity.
    - destruct r as [[r|[n|e]|r|]|]; cbn [t_answer] in Ha; try contradiction.
      + destruct Ha as (q & a' & Hr & _ & _ & ->). destruct (room_fates Hr Hp) as (hd & fs & po1 & -> & H1 & H2 & H3 & H4).
        exists hd, fs, po1. splits; auto; [|lia]. intros h. cbn. now rewrite <- app_assoc.
      + apply (Balk e Ha). reflexivity.
      + destruct Ha as [_ Ha]. apply (Unw Ha); reflexivity.
    - destruct r as [[r|r|r|]|]; cbn [t_answer] in Ha; try contradiction. destruct Ha as (-> & ->).
      exists [], [], po. splits; auto; apply m_forwards_nil.
    - destruct r as [[[u|e]|r|r|]|]; cbn [t_answer] in Ha; try contradiction. destruct Ha as (-> & _ & ->).
      exists [], [], (po ++ firstn n v). splits; auto; [|apply m_forwards_nil|].
      + intros h. cbn. now rewrite <- app_assoc.
      + apply Forall2_app; [exact Hp|apply Forall2_self].
    - destruct r as [[r|r|[n|e]|]|]; cbn [t_answer] in Ha; try contradiction.
      + destruct Ha as (q & a' & w1 & ys & Hr & Hn & Hc & _ & ->). destruct (room_fates Hr Hp) as (hd & fs & po1 & -> & H1 & H2 & H3 & H4).
        exists hd, fs, (po1 ++ firstn n buf). splits; auto; [|lia|].
        * intros h. cbn. now rewrite <- !app_assoc.
        * apply Forall2_app; [exact H4|]. eapply clones_descends, Hc.
      + apply (Balk e Ha). reflexivity.
      + destruct Ha as [Ha|(n & q & a' & w1 & ys & Hr & _ & _ & ->)].
        * apply (Unw Ha); reflexivity.
        * destruct (room_fates Hr Hp) as (hd & fs & po1 & -> & H1 & H2 & H3 & H4).
          exists hd, fs, po1. splits; auto; [|lia]. intros h. cbn. now rewrite <- app_assoc.
  Qed.

  Lemma t_torn_cons : forall e (h : list (cop T F * caught (cans E))), t_torn (e :: h) = t_torn [e] + t_torn h.
  Proof. intros e h. change (e :: h) with ([e] ++ h). unfold t_torn. rewrite filter_app, app_length. reflexivity. Qed.

  Context {S : Type} (dbg : bool) (fuel : nat) (C : bulk_consumer S T F E).

  Lemma t_fates : forall s w b h s' w' b', t_history clone M cap dbg fuel C s w b h s' w' b' ->
    forall a pend k v po, b = BActive a pend k v -> Forall2 (descends clone) po pend ->
    exists handled fs rest, po ++ t_given v h = handled ++ rest /\ Forall2 (meets clone) handled fs /\ gone fs <= t_torn h /\
      match b' with
      | BActive a' pend' _ _ => m_forwards M a (came fs) a' /\ Forall2 (descends clone) rest pend'
      | BEnded a' => exists a1, m_forwards M a (came fs) a1 /\ t_end M rest a1 a'
      end.
  Proof.
    induction 1 as [s w b|s w b o s1 w1 r b1 h s2 w2 b2 HP Hdo Ha Hh IH]; intros a pend k v po -> Hp.
    - exists [], [], po. cbn. rewrite app_nil_r. splits; auto; apply m_forwards_nil.
    - destruct (@t_fates_step a pend k v w o r b1 w1 po HP Ha Hp) as (d1 & f1 & r1 & E1 & M1 & G1 & H1). destruct b1 as [a1 pend1 k1 v1|a1].
      + destruct H1 as [F1 O1]. destruct (IH a1 pend1 k1 v1 r1 eq_refl O1) as (d2 & f2 & r2 & E2 & M2 & G2 & H2).
        exists (d1 ++ d2), (f1 ++ f2), r2. splits.
        * rewrite E1. cbn [t_written]. rewrite E2. now rewrite app_assoc.
        * now apply Forall2_app.
        * rewrite gone_app, t_torn_cons. lia.
        * rewrite came_app. destruct b2 as [a2 pend2 k2 v2|a2].
          -- destruct H2 as [F2 O2]. split; [eapply m_forwards_trans; eauto|exact O2].
          -- destruct H2 as (a3 & F2 & T2). exists a3. split; [eapply m_forwards_trans; eauto|exact T2].
      + inversion Hh; subst; [|contradiction]. exists d1, f1, r1. splits; auto. rewrite E1. cbn. now rewrite app_nil_r.
  Qed.
End Fates.

(** ** From the start *)
Section Start.
  Context {W S A T F E : Type} (clone : T -> W -> W * option T) (x0 : T) (C : bulk_consumer S T F E) (M : machine A T F E)
    (R : S -> A -> nat -> list T -> Prop) (D : S -> A -> Prop).
  Hypothesis L : lawful_consumer_core C M R D.

  Lemma b_permitted_dec : forall (b : babs A T) (o : cop T F), b_permitted b o \/ ~ b_permitted b o.
  Proof.
    intros [a pend k v|a] o; [|right; tauto]. destruct o as [x|f| | |ys|n|buf]; cbn; auto.
    - destruct (le_dec (length ys) k); auto.
    - destruct (le_dec 1 k), (le_dec n (length v)); tauto.
    - destruct buf; [right; congruence|left; discriminate].
  Qed.

  Section Within.
    Variables (cap : nat) (ops : list cscr_op) (fuel : nat).
    Hypothesis OK : cscr_ops_ok ops.
    Hypothesis Hf : Datatypes.S cap * length ops <= fuel.

    Lemma t_conforms_all : forall calls s b w, t_rel R D cap ops s b -> t_conforms clone M cap false fuel C calls s w b.
    Proof.
      induction calls as [|o calls IH]; intros s b w HR; [constructor|].
      destruct (b_permitted_dec b o) as [Hp|Hp]; [|now apply t_conforms_broken].
      destruct (@t_step W S A T F E clone C M R D L cap ops OK fuel Hf o s b w HR Hp) as (s' & w' & r & b' & E1 & H1 & H2).
      eapply t_conforms_step; eauto.
    Qed.

    Lemma t_run : forall calls s b w, t_rel R D cap ops s b ->
      exists h s' w' b', t_history clone M cap false fuel C s w b h s' w' b' /\ t_rel R D cap ops s' b' /\
        (calls = map fst h \/ exists o calls', calls = map fst h ++ o :: calls' /\ ~ b_permitted b' o).
    Proof.
      induction calls as [|o calls IH]; intros s b w HR.
      - exists [], s, w, b. splits; auto. constructor.
      - destruct (b_permitted_dec b o) as [Hp|Hp].
        + destruct (@t_step W S A T F E clone C M R D L cap ops OK fuel Hf o s b w HR Hp) as (s1 & w1 & r & b1 & E1 & H1 & H2).
          destruct (IH s1 b1 w1 H2) as (h & s' & w' & b' & Hh & HR' & Hc). exists ((o, r) :: h), s', w', b'.
          splits; auto; [econstructor; eauto|]. cbn. destruct Hc as [->|(o' & calls' & -> & Hn)]; [now left|right; eauto].
        + exists [], s, w, b. splits; auto; [constructor|]. right. exists o, calls. auto.
    Qed.
  End Within.

  Variables (s : S) (a : A) (k : nat) (v : list T) (pat : list cscr_op) (cap fuel : nat).
  Hypothesis HR : R s a k v.
  Hypothesis Hc : 1 <= cap.
  Hypothesis Hn : forall n, In (ScConsumeSlots n) pat -> 1 <= n.
  Hypothesis Hf : Datatypes.S cap * Datatypes.S (length pat) <= fuel.

  Lemma t_pat : Forall cscr_op_ok pat.
  Proof. apply Forall_forall; intros [| |] Hi; cbn; auto. Qed.

  Lemma t_fuel : Datatypes.S cap * length (cscr_operations pat) <= fuel.
  Proof. pose proof (cscr_operations_length pat) as H. clear - H Hf. nia. Qed.

  Lemma t_new : t_rel R D cap (cscr_operations pat) (cscr_new_with_capacity x0 s pat cap) (BActive a [] 0 []).
  Proof. cbn. eapply cscr_new_rel; eauto using t_pat. Qed.

  Lemma t_scrambler_conforms : forall calls w, t_conforms clone M cap false fuel C calls (cscr_new_with_capacity x0 s pat cap) w (BActive a [] 0 []).
  Proof.
    intros calls w. exact (@t_conforms_all cap (cscr_operations pat) fuel (cscr_operations_ok t_pat) t_fuel calls _ _ w t_new).
  Qed.

  Lemma t_scrambler_accounts : forall calls w, exists h s' w' b',
    t_history clone M cap false fuel C (cscr_new_with_capacity x0 s pat cap) w (BActive a [] 0 []) h s' w' b' /\
    (calls = map fst h \/ exists o calls', calls = map fst h ++ o :: calls' /\ ~ b_permitted b' o) /\
    exists handled fs rest, t_given [] h = handled ++ rest /\ Forall2 (meets clone) handled fs /\ gone fs <= t_torn h /\
      match b' with
      | BActive a' pend _ _ => m_forwards M a (came fs) a' /\ Forall2 (descends clone) rest pend /\ length pend <= cap /\ R (cs_inner s') a' 0 []
      | BEnded a' => D (cs_inner s') a' /\ exists a1, m_forwards M a (came fs) a1 /\ t_end M rest a1 a'
      end.
  Proof.
    intros calls w.
    destruct (@t_run cap (cscr_operations pat) fuel (cscr_operations_ok t_pat) t_fuel calls _ _ w t_new) as (h & s' & w' & b' & Hh & HR' & Hcalls).
    exists h, s', w', b'. splits; auto.
    destruct (t_fates Hh eq_refl (Forall2_nil _)) as (d & fs & rest & E1 & M1 & G & H). exists d, fs, rest. splits; auto.
    destruct b' as [a' pend' k' v'|a']; cbn in HR'.
    - destruct H as [H1 H2]. destruct HR' as [Wf HR']. destruct (cscr_wf_cap Wf) as [_ Hcap]. splits; auto.
    - split; [exact HR'|exact H].
  Qed.
End Start.

(** ** Tame implementations of [Clone] *)
Section Tame.
  Context {W S A T F E : Type} (clone : T -> W -> W * option T) (M : machine A T F E) (cap : nat) (dbg : bool) (fuel : nat) (C : bulk_consumer S T F E).

  Lemma total_not_t_torn : (forall x w, snd (clone x w) <> None) ->
    forall s w b h s' w' b', t_history clone M cap dbg fuel C s w b h s' w' b' -> t_torn h = 0.
  Proof.
    intros Ht s w b h s' w' b' H. induction H as [|s w b o s1 w1 r b1 h s2 w2 b2 Hp Hdo Ha Hh IH]; [reflexivity|]. rewrite t_torn_cons, IH.
    destruct b as [a pend k v|]; [|contradiction]. destruct r as [r|]; [reflexivity|]. exfalso.
    assert (Hu : forall pend' a' w', ~ unwinds clone M a pend w pend' a' w').
    { intros pend' a' w0 (q & w3 & _ & [(n & ys & Hb & _)|(x & _ & Hc)]).
      - exact (total_not_breaks Ht Hb).
      - apply (Ht x w3). now rewrite Hc. }
    destruct o; cbn [t_answer] in Ha; try contradiction.
    - destruct Ha as (_ & pend' & a' & Ha & _). exact (Hu _ _ _ Ha).
    - destruct Ha as (pend' & a' & Ha & _). exact (Hu _ _ _ Ha).
    - destruct Ha as (pend' & a' & Ha & _). exact (Hu _ _ _ Ha).
    - destruct Ha as (_ & pend' & a' & Ha & _). exact (Hu _ _ _ Ha).
    - destruct Ha as [(pend' & a' & Ha & _)|(n & q & a' & w3 & ys & _ & _ & Hb & _)]; [exact (Hu _ _ _ Ha)|exact (total_not_breaks Ht Hb)].
  Qed.

  (** Faithful and total: the machine gets what was given, in order. *)
  Lemma tame_clone : (forall x w, snd (clone x w) <> None) -> (forall x w w' y, clone x w = (w', Some y) -> y = x) ->
    forall s w a h s' w' a' pend k v, t_history clone M cap dbg fuel C s w (BActive a [] 0 []) h s' w' (BActive a' pend k v) ->
    exists out, t_given [] h = out ++ pend /\ m_forwards M a out a'.
  Proof.
    intros Ht Hy s w a h s' w' a' pend k v Hh. destruct (t_fates Hh eq_refl (Forall2_nil _)) as (d & fs & rest & E1 & M1 & G & H1 & H2).
    rewrite (total_not_t_torn Ht Hh) in G. assert (Hg : gone fs = 0) by lia.
    assert (Hd : forall x y, descends clone x y -> y = x) by (intros x y [->|(u & u' & H)]; eauto).
    assert (Hrest : rest = pend). { clear - H2 Hd. induction H2 as [|x y xs ys H H2 IH]; [reflexivity|]. apply Hd in H. now subst. }
    assert (Hout : d = came fs).
    { pose proof (none_gone M1 Hg) as H. clear - H Hd. induction H as [|x y xs ys (z & K1 & K2) H IH]; [reflexivity|]. apply Hd in K1. apply Hd in K2. now subst. }
    subst rest d. exists (came fs). auto.
  Qed.

  Lemma faithful_clone_thins : (forall x w w' y, clone x w = (w', Some y) -> y = x) ->
    forall s w a h s' w' a' pend k v, t_history clone M cap dbg fuel C s w (BActive a [] 0 []) h s' w' (BActive a' pend k v) ->
    exists handled out n, t_given [] h = handled ++ pend /\ thinned n handled out /\ n <= t_torn h /\ m_forwards M a out a'.
  Proof.
    intros Hy s w a h s' w' a' pend k v Hh. destruct (t_fates Hh eq_refl (Forall2_nil _)) as (d & fs & rest & E1 & M1 & G & H1 & H2).
    assert (Hd : forall x y, descends clone x y -> y = x) by (intros x y [->|(u & u' & H)]; eauto).
    assert (Hrest : rest = pend). { clear - H2 Hd. induction H2 as [|x y xs ys H H2 IH]; [reflexivity|]. apply Hd in H. now subst. }
    subst rest. exists d, (came fs), (gone fs). splits; auto.
    clear - M1 Hd. induction M1 as [|x f d fs H M1 IH]; [constructor|]. destruct f as [y|]; cbn.
    - cbn in H. destruct H as (z & K1 & K2). apply Hd in K1. apply Hd in K2. subst. constructor. exact IH.
    - constructor. exact IH.
  Qed.
End Tame.

(** ** With the identity for [clone], the code is that of the plain model. *)
Section Plain.
  Context {S T F E : Type} (dbg : bool) (x0 : T) (C : bulk_consumer S T F E).

  Lemma bulk_dequeue_into_plain : forall Q (I : queue Q T) len q,
    q_bulk_dequeue_into plain_clone I len q tt =
      let* (q', (buf, n)) := q_bulk_dequeue I (repeat x0 len) q in Ret (q', tt, (firstn n buf, Done n)).
  Proof.
    intros Q I len q. unfold q_bulk_dequeue_into, q_bulk_dequeue.
    destruct (q_expose_items I q) as [[q' [zs|]]| |]; cbn [bind]; try reflexivity. rewrite plain_clone_each, repeat_length.
    destruct (q_consider_dequeued I _ _); cbn [bind]; try reflexivity. do 3 f_equal.
    rewrite firstn_app, firstn_firstn, Nat.min_id, firstn_length.
    replace (Nat.min (length zs) len - Nat.min (Nat.min (length zs) len) (length zs)) with 0 by lia. cbn. now rewrite app_nil_r.
  Qed.

  Lemma cscr_perform_plain : forall s : cscr S T,
    cscr_perform_operation_cloning plain_clone dbg C s tt = let* (s', r) := cscr_perform_operation dbg x0 C s in Ret (s', tt, Done r).
  Proof.
    intros s. unfold cscr_perform_operation_cloning, cscr_perform_operation, debug_assert.
    destruct (dbg && negb (0 <? cs_len s)); [reflexivity|].
    destruct (index (cs_index s) (cs_operations s)) as [[|n|]| |]; cbn [bind]; try reflexivity.
    - rewrite fixed_deq_clones. destruct (q_dequeue (fixed_queue T) _) as [[b [x|]]| |]; cbn [bind plain_clone expect]; try reflexivity.
      destruct (c_consume C x _) as [[i [[]|e]]| |]; cbn [bind]; try reflexivity. now destruct (cscr_advance _).
    - destruct (c_expose C (cs_inner s)) as [[i [sl|e]]| |]; cbn [bind]; try reflexivity. rewrite bulk_dequeue_into_plain.
      destruct (q_bulk_dequeue (fixed_queue T) _ _) as [[b [buf m]]| |]; cbn [bind]; try reflexivity. cbn [cs_inner cs_with_inner cs_with_buffer].
      destruct (c_consume_slots C m _) as [[i2 [[]|e]]| |]; cbn [bind]; try reflexivity. cbn [cs_with_inner cs_with_buffer cs_buffer cs_operations cs_index cs_inner].
      now destruct (cscr_advance _).
    - destruct (c_flush C (cs_inner s)) as [[i [[]|e]]| |]; cbn [bind]; try reflexivity. now destruct (cscr_advance _).
  Qed.

  Lemma cscr_drain_plain : forall fuel (s : cscr S T),
    cscr_drain_cloning plain_clone dbg fuel C s tt = let* (s', r) := cscr_drain dbg x0 fuel C s in Ret (s', tt, Done r).
  Proof.
    induction fuel as [|fuel IH]; intros s; [reflexivity|]. cbn [cscr_drain_cloning cscr_drain].
    destruct (0 <? cs_len s); [|reflexivity]. rewrite cscr_perform_plain.
    destruct (cscr_perform_operation dbg x0 C s) as [[s1 [[]|e]]| |]; cbn [bind]; auto.
  Qed.

  Lemma t_do_plain : forall fuel o (s : cscr S T),
    t_do plain_clone dbg fuel C o s tt = let* (s', r) := c_do (cscr_consumer dbg x0 fuel C) o s in Ret (s', tt, Done r).
  Proof.
    intros fuel o s.
    assert (Ex : cscr_expose_cloning plain_clone dbg fuel C s tt = let* (s', r) := cscr_expose dbg x0 fuel C s in Ret (s', tt, Done r)).
    { unfold cscr_expose_cloning, cscr_expose. destruct (cs_len s <? fixed_capacity (cs_buffer s)).
      - destruct (q_expose_slots (fixed_queue T) _) as [[b [n|]]| |]; reflexivity.
      - rewrite cscr_drain_plain. destruct (cscr_drain dbg x0 fuel C s) as [[s1 [[]|e]]| |]; cbn [bind]; try reflexivity.
        destruct (q_expose_slots (fixed_queue T) _) as [[b [n|]]| |]; reflexivity. }
    destruct o as [x|f| | |ys|n|buf]; cbn [t_do c_do].
    - change (c_consume (cscr_consumer dbg x0 fuel C) x s) with (cscr_consume dbg x0 fuel C x s). unfold cscr_consume_cloning, cscr_consume.
      destruct (q_enqueue (fixed_queue T) x _) as [[b [y|]]| |]; cbn [bind]; try reflexivity. rewrite cscr_drain_plain.
      destruct (cscr_drain dbg x0 fuel C _) as [[s1 [[]|e]]| |]; cbn [bind]; try reflexivity.
      destruct (q_enqueue (fixed_queue T) y _) as [[b2 z]| |]; cbn [bind]; try reflexivity. unfold debug_assert. now destruct (dbg && _).
    - change (c_close (cscr_consumer dbg x0 fuel C) f s) with (cscr_close dbg x0 fuel C f s). unfold cscr_close_cloning, cscr_close. rewrite cscr_drain_plain.
      destruct (cscr_drain dbg x0 fuel C _) as [[s1 [[]|e]]| |]; cbn [bind]; try reflexivity. now destruct (c_close C f _) as [[i r]| |].
    - change (c_flush (cscr_consumer dbg x0 fuel C) s) with (cscr_flush dbg x0 fuel C s). unfold cscr_flush_cloning, cscr_flush. rewrite cscr_drain_plain.
      destruct (cscr_drain dbg x0 fuel C _) as [[s1 [[]|e]]| |]; cbn [bind]; try reflexivity. now destruct (c_flush C _) as [[i r]| |].
    - change (c_expose (cscr_consumer dbg x0 fuel C) s) with (cscr_expose dbg x0 fuel C s). rewrite Ex. now destruct (cscr_expose dbg x0 fuel C s) as [[s1 r]| |].
    - reflexivity.
    - change (c_consume_slots (cscr_consumer dbg x0 fuel C) n s) with (cscr_consume_slots (E := E) n s). now destruct (cscr_consume_slots n s) as [[s1 r]| |].
    - change (c_bulk_consume (cscr_consumer dbg x0 fuel C) buf s) with (default_bulk_consume (cscr_expose dbg x0 fuel C) (@cscr_write S T) (@cscr_consume_slots S T E) buf s).
      unfold cscr_bulk_consume_cloning, default_bulk_consume. rewrite Ex. destruct (cscr_expose dbg x0 fuel C s) as [[s1 [n|e]]| |]; cbn [bind]; try reflexivity.
      rewrite plain_clone_each. destruct (cscr_consume_slots _ _) as [[s2 [[]|e]]| |]; reflexivity.
  Qed.
End Plain.

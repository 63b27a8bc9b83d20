(** Readers that never end, and scramblers over producers that never end. *)
From Coq Require Import Bool List Arith Lia.
From Coq.Init Require Import Byte.
From Verif Require Import Prelude ListFacts QueueModel QueueSpec QueueProofs Traits Contracts ContractFacts BasicModel IoModel IoProofs
  ScramblerModel ScramblerProofs CodecModel EndianModel EndianSpec EndianProofs EndlessSpec EndlessProofs.
Import ListNotations.
Set Implicit Arguments.

Section BufReader.
  Context {S T : Type} (Rd : buf_reader S T) (x0 : T) (g : nat -> T) (R : S -> nat -> nat -> Prop).
  Hypothesis L : endless_buf_reader Rd g R.

  Lemma br_endless : endless_producer (buf_reader_producer Rd x0) g R.
  Proof.
    constructor; [constructor|].
    - intros s i k H. apply (eb_weaken L 0 H). lia.
    - intros s i k H. destruct (eb_read L [x0] H) as (s' & n & E & Hn & H'); [discriminate|]. cbn [length] in Hn.
      assert (n = 1) by lia. subst n. exists s'. split; [now apply read_one_item|]. now rewrite Nat.add_1_r in H'.
    - intros s i k H. cbn. unfold br_slurp. destruct (eb_fill_buf L H) as (s1 & n & E1 & Hn & Hk & H1). rewrite E1. cbn.
      exists s1. split; [reflexivity|]. exact (eb_weaken L k H1 Hk).
    - intros s i k H. change (p_expose (buf_reader_producer Rd x0)) with (br_expose_items Rd). unfold br_expose_items.
      destruct (eb_fill_buf L H) as (s1 & n & E1 & Hn & _ & H1). rewrite E1. cbn [bind].
      destruct (stretch g i n) eqn:Es; [now apply stretch_nonempty in Es|].
      destruct (eb_fill_buf L H1) as (s2 & m & E2 & Hm & _ & H2). rewrite E2. cbn [bind]. exists s2, m. auto.
    - intros s i k n H Hk Hn. cbn. unfold br_consider_produced. destruct (eb_consume L n H Hn) as (s' & E & H'). rewrite E. cbn. exists s'. auto.
    - intros s i k buf H Hb. change (p_bulk_produce (buf_reader_producer Rd x0)) with (@read_some S T Rd).
      destruct (eb_read L buf H Hb) as (s' & n & E & Hn & H'). exists s', n. split; [|split; [exact Hn|apply (eb_weaken L 0 H'); lia]].
      apply read_some_ok; auto. lia.
  Qed.
End BufReader.

Section Reader.
  Context {S Q T : Type} (Rd : reader S T) (I : queue Q T) (x0 : T) (c : nat) (g : nat -> T).
  Context (R : S -> nat -> Prop) (RQ : Q -> list T -> nat -> list T -> Prop).
  Hypothesis L : endless_reader Rd g R.
  Hypothesis LQ : lawful_queue I c RQ.
  Hypothesis Hc : 1 <= c.

  Definition erd_R (st : reader_state S Q) (i k : nat) : Prop :=
    exists n, RQ (rs_queue st) (stretch g i n) 0 [] /\ R (rs_reader st) (i + n) /\ k <= n.

  Lemma rd_endless : endless_producer (reader_producer Rd I x0) g erd_R.
  Proof.
    constructor; [constructor|].
    - intros st i k (n & A & B & _). exists n. splits; auto. lia.
    - intros [s q] i k (n & A & B & Hk). cbn [rs_queue rs_reader] in *. change (p_produce (reader_producer Rd I x0)) with (rd_produce Rd I x0).
      unfold rd_produce. cbn [rs_queue rs_reader]. destruct n as [|n].
      + change (stretch g i 0) with (@nil T) in A. rewrite (lq_dequeue_empty LQ A). cbn [bind]. rewrite Nat.add_0_r in B.
        destruct (@L _ _ [x0] B) as (s' & n & E & Hn & H'); [discriminate|]. cbn [length] in Hn. assert (n = 1) by lia. subst n.
        rewrite (read_one_item _ _ _ E). cbn [bind]. eexists. split; [reflexivity|]. exists 0. cbn [rs_queue rs_reader].
        replace (Datatypes.S i + 0) with (i + 1) by lia. splits; auto. lia.
      + rewrite stretch_S in A. destruct (lq_dequeue LQ A) as (q' & E & A'). rewrite E. cbn [bind].
        eexists. split; [reflexivity|]. exists n. cbn [rs_queue rs_reader]. replace (Datatypes.S i + n) with (i + Datatypes.S n) by lia. splits; auto. lia.
    - intros st i k H. exists st. split; [reflexivity|exact H].
    - intros [s q] i k (n & A & B & Hk). cbn [rs_queue rs_reader] in *. change (p_expose (reader_producer Rd I x0)) with (rd_expose_items Rd I x0).
      unfold rd_expose_items. cbn [rs_queue rs_reader]. destruct n as [|n].
      + change (stretch g i 0) with (@nil T) in A. rewrite (q_is_empty_nil LQ _ _ _ A). rewrite Nat.add_0_r in B.
        destruct (lq_expose_slots LQ A) as (q1 & n & E1 & N1 & N2 & A1); [cbn; lia|]. rewrite E1. cbn [bind expect].
        destruct (@L _ _ (repeat x0 n) B) as (s' & m & E & Hm & B'); [destruct n; [lia|discriminate]|]. rewrite repeat_length in Hm. rewrite E. cbn [bind].
        destruct (Nat.eqb_spec m 0); [lia|].
        assert (Hf : firstn m (stretch g i m ++ skipn m (repeat x0 n)) = stretch g i m).
        { rewrite firstn_app, stretch_length, Nat.sub_diag, firstn_O, app_nil_r. rewrite stretch_firstn. now rewrite Nat.min_id. }
        rewrite Hf.
        assert (A2 : RQ (q_write I (stretch g i m) q1) [] n (overlay (stretch g i m) [])).
        { apply (lq_write LQ _ A1). rewrite stretch_length. lia. }
        rewrite overlay_nil in A2.
        destruct (lq_consider_enqueued LQ m A2) as (q3 & E3 & A3); [rewrite stretch_length; lia|].
        rewrite E3. cbn [bind]. cbn [app] in A3. rewrite stretch_firstn, Nat.min_id in A3.
        destruct (lq_expose_items LQ A3) as (q4 & ys & rest & E4 & N4 & X4 & A4); [apply stretch_nonempty; lia|].
        rewrite E4. cbn [bind expect]. apply (lq_forget LQ) in A4.
        assert (Hy : ys = stretch g i (length ys) /\ length ys <= m).
        { assert (Hl := f_equal (@length T) X4). rewrite stretch_length, app_length in Hl. split; [|lia].
          rewrite <- (firstn_le_all (n := length ys) ys) at 1 by lia.
          assert (Hx := f_equal (firstn (length ys)) X4). rewrite stretch_firstn, firstn_app, Nat.sub_diag, firstn_O, app_nil_r in Hx.
          rewrite <- Hx. f_equal. lia. }
        destruct Hy as [Hy Hy2]. exists (mk_reader_state s' q4), (length ys). rewrite Hy at 1. split; [reflexivity|]. split; [destruct ys; [congruence|cbn; lia]|].
        exists m. cbn [rs_queue rs_reader]. auto.
      + assert (Hq : q_is_empty I q = false) by (rewrite stretch_S in A; exact (q_is_empty_cons LQ _ _ _ _ _ A)). rewrite Hq.
        destruct (lq_expose_items LQ A) as (q4 & ys & rest & E4 & N4 & X4 & A4); [apply stretch_nonempty; lia|].
        rewrite E4. cbn [bind expect].
        assert (Hy : ys = stretch g i (length ys) /\ length ys <= Datatypes.S n).
        { assert (Hl := f_equal (@length T) X4). rewrite stretch_length, app_length in Hl. split; [|lia].
          rewrite <- (firstn_le_all (n := length ys) ys) at 1 by lia.
          assert (Hx := f_equal (firstn (length ys)) X4). rewrite stretch_firstn, firstn_app, Nat.sub_diag, firstn_O, app_nil_r in Hx.
          rewrite <- Hx. f_equal. lia. }
        destruct Hy as [Hy Hy2]. exists (mk_reader_state s q4), (length ys). rewrite Hy at 1. split; [reflexivity|]. split; [destruct ys; [congruence|cbn; lia]|].
        exists (Datatypes.S n). cbn [rs_queue rs_reader]. auto.
    - intros [s q] i k m (n & A & B & Hk) Hk1 Hm. cbn [rs_queue rs_reader] in *. cbn. unfold rd_consider_produced. cbn.
      destruct (lq_consider_dequeued LQ m A) as (q' & E & A'); [rewrite stretch_length; lia|]. rewrite E. cbn. eexists. split; [reflexivity|].
      exists (n - m). cbn [rs_queue rs_reader]. rewrite stretch_skipn in A'. replace (i + m + (n - m)) with (i + n) by lia. splits; auto. lia.
    - intros [s q] i k buf (n & A & B & Hk) Hb. cbn [rs_queue rs_reader] in *. change (p_bulk_produce (reader_producer Rd I x0)) with (rd_bulk_produce Rd I).
      unfold rd_bulk_produce. cbn [rs_queue rs_reader]. destruct n as [|n].
      + change (stretch g i 0) with (@nil T) in A. rewrite (q_is_empty_nil LQ _ _ _ A). rewrite Nat.add_0_r in B.
        destruct (@L _ _ buf B Hb) as (s' & m & E & Hm & B'). rewrite (read_some_ok _ _ _ E) by lia. cbn [bind].
        eexists. exists m. split; [reflexivity|]. split; [exact Hm|]. exists 0. cbn [rs_queue rs_reader]. rewrite Nat.add_0_r. auto.
      + assert (Hq : q_is_empty I q = false) by (rewrite stretch_S in A; exact (q_is_empty_cons LQ _ _ _ _ _ A)). rewrite Hq.
        destruct (lawful_bulk_dequeue LQ buf A) as (q' & m & E & H1 & H2 & H3 & A'). rewrite E. cbn [bind]. rewrite stretch_length in H2.
        assert (Hn0 : 1 <= m). { destruct m; [|lia]. destruct H3 as [H3 _]. destruct (H3 eq_refl) as [Hx|Hx]; [now apply stretch_nonempty in Hx; [|lia]|congruence]. }
        rewrite stretch_firstn in *. replace (Nat.min m (Datatypes.S n)) with m by lia.
        eexists. exists m. split; [reflexivity|]. split; [lia|]. exists (Datatypes.S n - m). cbn [rs_queue rs_reader].
        rewrite stretch_skipn in A'. replace (i + m + (Datatypes.S n - m)) with (i + Datatypes.S n) by lia. splits; auto. lia.
  Qed.
End Reader.

(** ** The producer scrambler *)
Section Scrambler.
  Context {S T F E : Type} (dbg : bool) (P : bulk_producer S T F E) (g : nat -> T) (R : S -> nat -> nat -> Prop).
  Hypothesis L : endless_core P g R.
  Variables (cap : nat) (ops : list pscr_op).
  Hypothesis OK : pscr_ops_ok ops.

  (** [n] items from position [i] on are in the buffer. *)
  Definition escr_at (s : pscr S T F E) (i n : nat) : Prop :=
    pscr_wf cap ops s (stretch g i n) /\ ps_last s = None /\ exists k, R (ps_inner s) (i + n) k.

  Definition escr_rel (s : pscr S T F E) (i k : nat) : Prop := exists n, escr_at s i n /\ k <= n.

  Lemma escr_perform : forall s i n, escr_at s i n -> n < cap ->
    exists s' m, pscr_perform_operation dbg P s = Ret (s', Ok None) /\ escr_at s' i (n + m) /\
      ps_index s' = (ps_index s + 1) mod length ops /\ (1 <= m \/ nth_error ops (ps_index s) = Some ScSlurp).
  Proof.
    intros s i n (W & Hlast & k & HR) Hlt. pose proof W as (HQ & Ho & Hi).
    unfold pscr_perform_operation. rewrite debug_assert_true.
    2: { rewrite (pscr_wf_len W), stretch_length. destruct (pscr_wf_cap W) as [-> _]. now apply Nat.ltb_lt. }
    rewrite Ho. unfold index. destruct (nth_error ops (ps_index s)) as [o|] eqn:En.
    2: { apply nth_error_None in En. lia. }
    cbn [bind].
    assert (Hin : In o ops) by (eapply nth_error_In; eauto).
    assert (Hok : pscr_op_ok o) by (destruct OK as [Hf _]; rewrite Forall_forall in Hf; now apply Hf).
    destruct o as [|x|].
    - destruct (en_produce L HR) as (i' & E1 & HR'). rewrite E1. cbn [bind].
      destruct (lq_enqueue (fixed_lawful cap) (g (i + n)) HQ) as (b & E2 & HQ'); [now rewrite stretch_length|].
      cbn [ps_with_inner ps_buffer]. rewrite E2. cbn [bind]. rewrite debug_assert_true by reflexivity.
      assert (Hs : stretch g i n ++ [g (i + n)] = stretch g i (n + 1)) by (rewrite stretch_app; reflexivity). rewrite Hs in HQ'.
      eexists _, 1. erewrite pscr_advance_ok with (cap := cap) (ops := ops) (buf := stretch g i (n + 1)).
      2: { unfold pscr_wf, ps_with_buffer, ps_with_inner; cbn [ps_buffer ps_operations ps_index ps_inner ps_last]; splits; auto. }
      cbn [bind]. splits; [reflexivity| |cbn; auto|left; lia]. unfold escr_at, pscr_wf, ps_with_buffer, ps_with_inner.
      cbn [ps_buffer ps_operations ps_index ps_inner ps_last]. splits; auto.
      + apply Nat.mod_upper_bound. lia.
      + exists (k - 1). now replace (i + (n + 1)) with (Datatypes.S (i + n)) by lia.
    - cbn in Hok. destruct (en_expose L HR) as (i' & len & E1 & Hlen & HR'). rewrite E1. cbn [bind]. cbn [ps_with_inner ps_buffer ps_inner].
      rewrite slice_to_ok by lia. cbn [bind]. rewrite stretch_length, stretch_firstn.
      replace (Nat.min (Nat.min len x) len) with (Nat.min len x) by lia.
      destruct (lawful_bulk_enqueue (fixed_lawful cap) (stretch g (i + n) (Nat.min len x)) HQ) as (b & m & E2 & Hm1 & Hm2 & Hm3 & HQ').
      rewrite E2. cbn [bind]. rewrite stretch_length in Hm1.
      assert (Hm : 1 <= m).
      { destruct (Nat.eq_dec m 0) as [E0|E0]; [|lia]. apply Hm3 in E0. rewrite stretch_length in E0. destruct E0 as [E0|E0]; [lia|].
        apply stretch_nonempty in E0; [destruct E0|lia]. }
      destruct (en_consider L m HR') as (i2 & E3 & HR2); [lia|lia|].
      unfold ps_with_buffer, ps_with_inner. cbn [ps_inner ps_buffer ps_last ps_operations ps_index]. rewrite E3. cbn [bind].
      rewrite stretch_firstn in HQ'. replace (Nat.min m (Nat.min len x)) with m in HQ' by lia. rewrite <- stretch_app in HQ'.
      eexists _, m. erewrite pscr_advance_ok with (cap := cap) (ops := ops) (buf := stretch g i (n + m)).
      2: { unfold pscr_wf; cbn [ps_buffer ps_operations ps_index ps_inner]; splits; auto. }
      cbn [bind]. splits; [reflexivity| |cbn; auto|left; lia]. unfold escr_at, pscr_wf.
      cbn [ps_buffer ps_operations ps_index ps_inner ps_last]. splits; auto.
      + apply Nat.mod_upper_bound. lia.
      + exists (len - m). now rewrite Nat.add_assoc.
    - destruct (en_slurp L HR) as (i' & E1 & HR'). rewrite E1. cbn [bind]. eexists _, 0.
      erewrite pscr_advance_ok with (cap := cap) (ops := ops) (buf := stretch g i n).
      2: { unfold pscr_wf, ps_with_inner; cbn [ps_buffer ps_operations ps_index ps_inner]; splits; auto. }
      cbn [bind]. rewrite Nat.add_0_r. splits; [reflexivity| |cbn; auto|right; auto]. unfold escr_at, pscr_wf, ps_with_inner.
      cbn [ps_buffer ps_operations ps_index ps_inner ps_last]. splits; auto.
      + apply Nat.mod_upper_bound. lia.
      + exists k. auto.
  Qed.

  Lemma escr_fill_loop : forall j o, nth_error ops j = Some o -> o <> ScSlurp -> forall fuel s i n, escr_at s i n ->
    (cap - n) * length ops + cyc_dist (length ops) (ps_index s) j < fuel ->
    exists s', pscr_fill_loop dbg fuel P s = Ret s' /\ escr_at s' i cap.
  Proof.
    intros j o Hj Ho. assert (Hjl : j < length ops) by (apply nth_error_Some; congruence).
    induction fuel as [|fuel IH]; intros s i n H Hf; [exfalso; exact (Nat.nlt_0_r _ Hf)|].
    pose proof H as (W & Hlast & _). cbn [pscr_fill_loop]. rewrite Hlast, (pscr_wf_len W). destruct (pscr_wf_cap W) as [-> Hc]. rewrite stretch_length in *.
    destruct (Nat.ltb_spec n cap) as [Hlt|Hge].
    2: { exists s. split; [reflexivity|]. now replace cap with n by lia. }
    assert (H1 : length ops <= (cap - n) * length ops).
    { rewrite <- (Nat.mul_1_l (length ops)) at 1. apply Nat.mul_le_mono_r. lia. }
    assert (Hmul : forall m, 1 <= m -> n + m <= cap -> (cap - (n + m)) * length ops + length ops <= (cap - n) * length ops).
    { intros m Hm1 Hm2. replace (cap - n) with ((cap - (n + m)) + m) by lia. rewrite Nat.mul_add_distr_r. apply Nat.add_le_mono_l.
      rewrite <- (Nat.mul_1_l (length ops)) at 1. apply Nat.mul_le_mono_r. lia. }
    destruct (escr_perform H Hlt) as (s' & m & E1 & H' & Hi & Hprog). rewrite E1. cbn [bind].
    apply (IH s' i (n + m) H'). destruct H' as (W' & _). destruct (pscr_wf_cap W') as [_ Hc']. rewrite stretch_length in Hc'. rewrite Hi.
    destruct Hprog as [Hm|Hm].
    - pose proof (@cyc_dist_lt (length ops) ((ps_index s + 1) mod length ops) j). specialize (Hmul m). lia.
    - assert (m = 0 \/ 1 <= m) as [->|Hm1] by lia.
      + rewrite Nat.add_0_r. enough (cyc_dist (length ops) ((ps_index s + 1) mod length ops) j < cyc_dist (length ops) (ps_index s) j) by lia.
        apply cyc_dist_step; [apply W|lia|]. intros Eq. rewrite Eq in Hm. congruence.
      + pose proof (@cyc_dist_lt (length ops) ((ps_index s + 1) mod length ops) j). specialize (Hmul m). lia.
  Qed.

  Lemma escr_fill_queue : forall fuel s i n, 1 <= cap -> Datatypes.S cap * length ops <= fuel -> escr_at s i n ->
    n <= cap /\ exists s', pscr_fill_queue dbg fuel P s = Ret (s', None) /\ escr_at s' i cap.
  Proof.
    intros fuel s i n Hcap Hf H. pose proof H as (W & _). destruct (pscr_wf_cap W) as [_ Hc]. rewrite stretch_length in Hc. split; [exact Hc|].
    destruct OK as [_ (j & o & Hj & Ho)]. assert (Hjl : j < length ops) by (apply nth_error_Some; congruence).
    destruct (@escr_fill_loop j o Hj Ho fuel s i n H) as (s' & E1 & H').
    { pose proof (@cyc_dist_lt (length ops) (ps_index s) j). enough ((cap - n) * length ops <= cap * length ops) by (cbn in Hf; lia). apply Nat.mul_le_mono_r. lia. }
    unfold pscr_fill_queue. rewrite E1. cbn [bind]. pose proof H' as (W' & _). rewrite (pscr_wf_len W'), stretch_length.
    destruct (Nat.eqb_spec cap 0); [lia|]. exists s'. auto.
  Qed.

  Lemma escr_endless : forall fuel, 1 <= cap -> Datatypes.S cap * length ops <= fuel -> endless_producer (pscr_producer dbg fuel P) g escr_rel.
  Proof.
    intros fuel Hcap Hf. apply default_endless; [|reflexivity]. constructor.
    - intros s i k (n & H & _). exists n. split; [exact H|lia].
    - intros s i k (n & H & Hk). change (p_produce (pscr_producer dbg fuel P)) with (pscr_produce dbg fuel P). unfold pscr_produce.
      destruct (escr_fill_queue Hcap Hf H) as (Hn & s' & E1 & H'). rewrite E1. cbn [bind]. destruct H' as ((HQ & Ho & Hi) & Hl & k' & HR).
      assert (Hs : stretch g i cap = g i :: stretch g (Datatypes.S i) (cap - 1)) by (rewrite <- stretch_S; f_equal; lia).
      rewrite Hs in HQ. destruct (lq_dequeue (fixed_lawful cap) HQ) as (b & E2 & HQ'). rewrite E2. cbn [bind expect].
      eexists. split; [reflexivity|]. exists (cap - 1). split; [|lia]. unfold escr_at, pscr_wf, ps_with_buffer. cbn [ps_buffer ps_operations ps_index ps_inner ps_last].
      splits; auto. exists k'. now replace (Datatypes.S i + (cap - 1)) with (i + cap) by lia.
    - intros s i k (n & H & Hk). change (p_slurp (pscr_producer dbg fuel P)) with (pscr_slurp dbg fuel P). unfold pscr_slurp.
      destruct (escr_fill_queue Hcap Hf H) as (Hn & s' & E1 & H'). rewrite E1. cbn [bind]. unfold pscr_slurp_inner. destruct H' as ((HQ & Ho & Hi) & Hl & k' & HR).
      destruct (en_slurp L HR) as (i' & E2 & HR'). rewrite E2. cbn [bind]. eexists. split; [reflexivity|]. exists cap. split; [|lia].
      unfold escr_at, pscr_wf, ps_with_inner. cbn [ps_buffer ps_operations ps_index ps_inner ps_last]. splits; auto. exists k'. exact HR'.
    - intros s i k (n & H & Hk). change (p_expose (pscr_producer dbg fuel P)) with (pscr_expose dbg fuel P). unfold pscr_expose.
      destruct (escr_fill_queue Hcap Hf H) as (Hn & s' & E1 & H'). rewrite E1. cbn [bind]. destruct H' as ((HQ & Ho & Hi) & Hl & k' & HR).
      destruct (lq_expose_items (fixed_lawful cap) HQ) as (b & ys & rest & E2 & Hne & X4 & HQ'); [now apply stretch_nonempty|]. rewrite E2. cbn [bind expect].
      assert (Hy : ys = stretch g i (length ys) /\ length ys <= cap).
      { assert (Hlen := f_equal (@length T) X4). rewrite stretch_length, app_length in Hlen. split; [|lia].
        rewrite <- (firstn_le_all (n := length ys) ys) at 1 by lia.
        assert (Hx := f_equal (firstn (length ys)) X4). rewrite stretch_firstn, firstn_app, Nat.sub_diag, firstn_O, app_nil_r in Hx.
        rewrite <- Hx. f_equal. lia. }
      destruct Hy as [Hy Hy2]. exists (ps_with_buffer b s'), (length ys). rewrite Hy at 1. split; [reflexivity|]. split; [destruct ys; [congruence|cbn; lia]|].
      exists cap. split; [|exact Hy2]. unfold escr_at, pscr_wf, ps_with_buffer. cbn [ps_buffer ps_operations ps_index ps_inner ps_last]. splits; auto. exists k'. exact HR.
    - intros s i k m (n & ((HQ & Ho & Hi) & Hl & k' & HR) & Hk) H1 Hm. cbn. unfold pscr_consider.
      destruct (lq_consider_dequeued (fixed_lawful cap) m HQ) as (b & E1 & HQ'); [rewrite stretch_length; lia|]. rewrite E1. cbn [bind]. eexists. split; [reflexivity|].
      rewrite stretch_skipn in HQ'. exists (n - m). split; [|lia]. unfold escr_at, pscr_wf, ps_with_buffer. cbn [ps_buffer ps_operations ps_index ps_inner ps_last].
      splits; auto. exists k'. now replace (i + m + (n - m)) with (i + n) by lia.
  Qed.
End Scrambler.

Section ScramblerNew.
  Context {S T F E : Type} (dbg : bool) (P : bulk_producer S T F E) (g : nat -> T) (R : S -> nat -> nat -> Prop).
  Hypothesis L : endless_core P g R.

  Lemma escr_new : forall x0 s pat cap i k fuel, 1 <= cap -> R s i k -> Forall pscr_op_ok pat -> Datatypes.S cap * Datatypes.S (length pat) <= fuel ->
    goes_on (pscr_producer dbg fuel P) g (pscr_new_with_capacity x0 s pat cap) i.
  Proof.
    intros x0 s pat cap i k fuel Hc HR Hf Hl. pose proof (pscr_operations_ok Hf) as OK. pose proof (pscr_operations_length pat) as Hlen.
    exists (escr_rel g R cap (pscr_operations pat)). split.
    - apply escr_endless; auto. nia.
    - exists 0. split; [|lia]. unfold escr_at, pscr_wf, pscr_new_with_capacity, fixed_new. cbn. splits; auto.
      + now apply fixed_new_R.
      + destruct OK as [_ (j & o & Hj & _)].
        assert (j < length (pscr_operations pat)) by (apply nth_error_Some; congruence). lia.
      + exists k. now rewrite Nat.add_0_r.
  Qed.
End ScramblerNew.

(** ** Numbers decoded from bytes that never end *)
Section Decoder.
  Context {S F E : Type} (P : bulk_producer S byte F E) (g : nat -> byte) (R : S -> nat -> nat -> Prop).
  Hypothesis L : endless_producer P g R.
  Variables (w : wrapper) (v : nat -> num (wrapped w)).
  Hypothesis V : forall j, encodes w (v j) (stretch g (j * width w) (width w)).

  Lemma endian_decode_endless : forall s j k, R s (j * width w) k ->
    exists s', endian_decode w P s = Ret (s', Ok (v j)) /\ R s' (Datatypes.S j * width w) 0.
  Proof.
    intros s j k HR. unfold endian_decode. destruct (@bulk_overwrite_endless _ _ _ _ _ _ _ L (Datatypes.S (length (repeat x00 (BITS (wrapped w) / 8)))) (repeat x00 (BITS (wrapped w) / 8)) s (j * width w) k HR) as (s' & E1 & HR1); [lia|].
    rewrite E1. cbn [bind]. rewrite repeat_length, width_bits in HR1 |- *. exists s'. split.
    - do 3 f_equal. rewrite (proj1 (encodes_iff _ _ _) (V j)). apply from_to_bytes.
    - now rewrite Nat.mul_succ_l.
  Qed.

  Lemma decoder_endless : forall s j k, R s (j * width w) k ->
    exists s', p_produce (decoder (endian_decode w) P) s = Ret (s', Ok (inl (v j))) /\ R s' (Datatypes.S j * width w) 0.
  Proof.
    intros s j k HR. destruct (en_expose L HR) as (s1 & n & E1 & Hn & HR1). destruct (@endian_decode_endless s1 j n HR1) as (s2 & E2 & HR2).
    exists s2. split; [|exact HR2]. change (p_produce (decoder (endian_decode w) P) s) with (decoder_produce (endian_decode w) P s). unfold decoder_produce. rewrite E1. cbn [bind]. now rewrite E2.
  Qed.

  Lemma decoder_slurp_endless : forall s i k, R s i k ->
    exists s', p_slurp (decoder (endian_decode w) P) s = Ret (s', Ok tt) /\ R s' i k.
  Proof. intros s i k HR. destruct (en_slurp L HR) as (s1 & E1 & HR1). exists s1. split; [|exact HR1]. cbn. unfold decoder_slurp. now rewrite E1. Qed.
End Decoder.

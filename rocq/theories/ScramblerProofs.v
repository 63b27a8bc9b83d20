(** Proofs about the BulkScramblers. *)
From Coq Require Import Bool List Arith Lia.
From Verif Require Import Prelude ListFacts Traits Contracts ContractFacts QueueModel QueueSpec QueueProofs
  AdaptorSpec BufferedSpec BufferedFacts ScramblerModel.
Import ListNotations.
Set Implicit Arguments.

Lemma debug_assert_true : forall X dbg b (k : outcome X), b = true -> debug_assert dbg b k = k.
Proof. intros X [] b k ->; reflexivity. Qed.

(** How many steps it takes, from index [i], to get to index [j] cyclically. *)
Definition cyc_dist (n i j : nat) : nat := (j + n - i) mod n.

Lemma cyc_dist_lt : forall n i j, 0 < n -> cyc_dist n i j < n.
Proof. intros. unfold cyc_dist. apply Nat.mod_upper_bound. lia. Qed.

Lemma cyc_dist_step : forall n i j, i < n -> j < n -> i <> j ->
  cyc_dist n ((i + 1) mod n) j < cyc_dist n i j.
Proof.
  intros n i j Hi Hj Hne. unfold cyc_dist.
  destruct (Nat.eq_dec (i + 1) n) as [E|E].
  - rewrite E, Nat.mod_same by lia. rewrite Nat.sub_0_r.
    replace (j + n) with (j + 1 * n) by lia. rewrite Nat.mod_add by lia.
    rewrite (Nat.mod_small j) by lia.
    replace (j + 1 * n - i) with (j + 1) by lia. rewrite Nat.mod_small by lia. lia.
  - rewrite (Nat.mod_small (i + 1)) by lia.
    destruct (Nat.lt_ge_cases i j) as [H|H].
    + replace (j + n - (i + 1)) with ((j - i - 1) + 1 * n) by lia.
      replace (j + n - i) with ((j - i) + 1 * n) by lia.
      rewrite !Nat.mod_add by lia. rewrite !Nat.mod_small by lia. lia.
    + rewrite !Nat.mod_small by lia. lia.
Qed.

(** ** Producer *)
Section Producer.
  Context {S T F E : Type} (dbg : bool) (P : bulk_producer S T F E)
    (R : S -> list T -> res F E -> nat -> Prop) (D : S -> Prop).
  Hypothesis L : lawful_producer_core P R D.

  Definition pscr_op_ok (o : pscr_op) : Prop :=
    match o with ScConsiderProduced n => 1 <= n | _ => True end.

  Definition pscr_ops_ok (ops : list pscr_op) : Prop :=
    Forall pscr_op_ok ops /\ exists j o, nth_error ops j = Some o /\ o <> ScSlurp.

  (** The part of the invariant that does not concern the sequence. *)
  Definition pscr_wf (cap : nat) (ops : list pscr_op) (s : pscr S T F E) (buf : list T) : Prop :=
    fixed_R cap (ps_buffer s) buf 0 [] /\ ps_operations s = ops /\ ps_index s < length ops.

  (** Buffered items, then what the inner producer holds. *)
  Definition pscr_holds (s : pscr S T F E) (buf xs : list T) (l : res F E) : Prop :=
    match ps_last s with
    | None => exists ys k, R (ps_inner s) ys l k /\ xs = buf ++ ys
    | Some l' => l' = l /\ xs = buf /\ D (ps_inner s)
    end.

  Definition pscr_rel (cap : nat) (ops : list pscr_op) (s : pscr S T F E) (xs : list T) (l : res F E) (k : nat) : Prop :=
    exists buf, pscr_wf cap ops s buf /\ pscr_holds s buf xs l /\ k <= length buf.

  Definition pscr_end (s : pscr S T F E) : Prop := D (ps_inner s).

  Section Fixed.
    Variables (cap : nat) (ops : list pscr_op).
    Hypothesis LS : lawful_slurp P R D \/ ~ In ScSlurp ops.
    Hypothesis OK : pscr_ops_ok ops.

    Lemma pscr_wf_len : forall s buf, pscr_wf cap ops s buf -> ps_len s = length buf.
    Proof. intros s buf (HQ & _). exact (lq_len (fixed_lawful cap) HQ). Qed.

    Lemma pscr_wf_cap : forall s buf, pscr_wf cap ops s buf ->
      fixed_capacity (ps_buffer s) = cap /\ length buf <= cap.
    Proof. intros s buf ((_ & Hc & _ & _ & Hl & _) & _). lia. Qed.

    Lemma pscr_advance_ok : forall s buf, pscr_wf cap ops s buf ->
      pscr_advance s = Ret (mk_pscr (ps_inner s) (ps_buffer s) (ps_last s) ops ((ps_index s + 1) mod length ops)).
    Proof.
      intros s buf (HQ & Ho & Hi). unfold pscr_advance. rewrite Ho, cmod_ok by lia. reflexivity.
    Qed.

    (** One scrambled operation: it moves at least one item into the buffer, or is a
        [slurp], or discovers the end of the inner sequence. *)
    Lemma pscr_perform_ok : forall s buf ys l k,
      pscr_wf cap ops s buf -> ps_last s = None -> length buf < cap -> R (ps_inner s) ys l k ->
      (exists s' m k', pscr_perform_operation dbg P s = Ret (s', Ok None) /\
         m <= length ys /\ pscr_wf cap ops s' (buf ++ firstn m ys) /\ ps_last s' = None /\
         R (ps_inner s') (skipn m ys) l k' /\ ps_index s' = (ps_index s + 1) mod length ops /\
         (1 <= m \/ nth_error ops (ps_index s) = Some ScSlurp)) \/
      (exists s', ys = [] /\ pscr_wf cap ops s' buf /\ ps_last s' = None /\ D (ps_inner s') /\
         pscr_perform_operation dbg P s =
           Ret (s', match l with Ok f => Ok (Some f) | Err e => Err e end)).
    Proof.
      intros s buf ys l k W Hlast Hlt HR. pose proof W as (HQ & Ho & Hi).
      unfold pscr_perform_operation. rewrite debug_assert_true.
      2: { rewrite (pscr_wf_len W). destruct (pscr_wf_cap W) as [-> _]. now apply Nat.ltb_lt. }
      rewrite Ho. unfold index. destruct (nth_error ops (ps_index s)) as [o|] eqn:En.
      2: { apply nth_error_None in En. lia. }
      cbn [bind].
      assert (Hin : In o ops) by (eapply nth_error_In; eauto).
      assert (Hok : pscr_op_ok o).
      { destruct OK as [Hf _]. rewrite Forall_forall in Hf. now apply Hf. }
      destruct o as [|n|].
      - destruct ys as [|y ys].
        + destruct (lp_produce_last L HR) as (i' & E1 & HD). rewrite E1. cbn [bind].
          right. exists (ps_with_inner i' s). splits; auto. destruct l; reflexivity.
        + destruct (lp_produce L HR) as (i' & E1 & HR'). rewrite E1. cbn [bind].
          destruct (lq_enqueue (fixed_lawful cap) y HQ Hlt) as (b & E2 & HQ').
          cbn [ps_with_inner ps_buffer]. rewrite E2. cbn [bind].
          rewrite debug_assert_true by reflexivity.
          left. eexists _, 1, (k - 1).
          erewrite pscr_advance_ok with (buf := buf ++ [y]).
          2: { unfold pscr_wf, ps_with_buffer, ps_with_inner; cbn; splits; auto. }
          cbn [bind]. splits; [reflexivity|cbn; lia| |cbn; auto|cbn; auto|cbn; auto|left; lia].
          unfold pscr_wf, ps_with_buffer, ps_with_inner; cbn [ps_buffer ps_operations ps_index ps_inner]; splits; auto.
          apply Nat.mod_upper_bound. lia.
      - cbn in Hok. destruct ys as [|y ys0].
        + destruct (lp_expose_last L HR) as (i' & E1 & HD). rewrite E1. cbn [bind].
          right. exists (ps_with_inner i' s). splits; auto. destruct l; reflexivity.
        + remember (y :: ys0) as ys eqn:Eys.
          destruct (lp_expose L HR) as (i' & zs & rest & E1 & Hne & Hys & HR'); [congruence|].
          rewrite E1. cbn [bind]. cbn [ps_with_inner ps_buffer ps_inner].
          set (n' := Nat.min (length zs) n).
          rewrite slice_to_ok by (subst n'; lia). cbn [bind].
          destruct (lawful_bulk_enqueue (fixed_lawful cap) (firstn n' zs) HQ) as (b & m & E2 & Hm1 & Hm2 & Hm3 & HQ').
          rewrite E2. cbn [bind].
          rewrite firstn_length in Hm1.
          assert (Hz : length zs <> 0) by (destruct zs; [congruence|cbn; lia]).
          assert (Hm : 1 <= m).
          { destruct (Nat.eq_dec m 0) as [E0|E0]; [|lia]. apply Hm3 in E0. destruct E0 as [E0|E0]; [lia|].
            apply (f_equal (@length T)) in E0. rewrite firstn_length in E0. cbn in E0. lia. }
          destruct (lp_consider L m HR') as (i2 & E3 & HR2); [lia|lia|].
          unfold ps_with_buffer, ps_with_inner. cbn [ps_inner ps_buffer ps_last ps_operations ps_index]. rewrite E3. cbn [bind].
          rewrite firstn_firstn in HQ'.
          assert (Hf : firstn (Nat.min m n') zs = firstn m ys).
          { rewrite Nat.min_l by lia. rewrite Hys, firstn_app. replace (m - length zs) with 0 by lia.
            cbn. now rewrite app_nil_r. }
          rewrite Hf in HQ'.
          left. eexists _, m, _.
          erewrite pscr_advance_ok with (buf := buf ++ firstn m ys).
          2: { unfold pscr_wf; cbn [ps_buffer ps_operations ps_index ps_inner]; splits; auto. }
          cbn [bind]. splits; [reflexivity| | |cbn; auto|cbn; eassumption|cbn; auto|left; lia].
          * rewrite Hys, app_length. lia.
          * unfold pscr_wf; cbn [ps_buffer ps_operations ps_index ps_inner]; splits; auto.
            apply Nat.mod_upper_bound. lia.
      - destruct LS as [LS'|LS']; [|contradiction].
        destruct (LS' _ _ _ _ HR) as [(i' & E1 & HR')|(i' & e & E1 & -> & -> & HD)]; rewrite E1; cbn [bind].
        + left. eexists _, 0, k.
          erewrite pscr_advance_ok with (buf := buf).
          2: { unfold pscr_wf, ps_with_inner; cbn [ps_buffer ps_operations ps_index ps_inner]; splits; auto. }
          cbn [bind]. splits; [reflexivity|lia| |cbn; auto|cbn; auto|cbn; auto|right; auto].
          unfold pscr_wf, ps_with_inner; cbn [ps_buffer ps_operations ps_index ps_inner firstn]; splits; auto.
          * now rewrite app_nil_r.
          * apply Nat.mod_upper_bound. lia.
        + right. exists (ps_with_inner i' s). splits; auto.
    Qed.

    (** The loop fills the buffer, or reads the whole inner sequence. *)
    Lemma pscr_fill_loop_ok : forall j o, nth_error ops j = Some o -> o <> ScSlurp ->
      forall fuel s buf xs l,
      pscr_wf cap ops s buf -> pscr_holds s buf xs l ->
      (cap - length buf) * length ops + cyc_dist (length ops) (ps_index s) j < fuel ->
      exists s' more, pscr_fill_loop dbg fuel P s = Ret s' /\ pscr_wf cap ops s' (buf ++ more) /\
        pscr_holds s' (buf ++ more) xs l /\ (ps_last s' = None -> length (buf ++ more) = cap).
    Proof.
      intros j o Hj Ho. assert (Hjl : j < length ops) by (apply nth_error_Some; congruence).
      induction fuel as [|fuel IH]; intros s buf xs l W HH Hf; [exfalso; exact (Nat.nlt_0_r _ Hf)|].
      cbn [pscr_fill_loop]. destruct (ps_last s) as [l'|] eqn:El.
      { exists s, []. rewrite app_nil_r. splits; auto. congruence. }
      rewrite (pscr_wf_len W). destruct (pscr_wf_cap W) as [-> Hc].
      destruct (Nat.ltb_spec (length buf) cap) as [Hlt|Hge].
      2: { exists s, []. rewrite app_nil_r. splits; auto. lia. }
      assert (HH' := HH). unfold pscr_holds in HH'. rewrite El in HH'. destruct HH' as (ys & k & HR & ->).
      assert (H1 : length ops <= (cap - length buf) * length ops).
      { rewrite <- (Nat.mul_1_l (length ops)) at 1. apply Nat.mul_le_mono_r. lia. }
      assert (Hmul : forall m, 1 <= m -> length buf + m <= cap ->
        (cap - (length buf + m)) * length ops + length ops <= (cap - length buf) * length ops).
      { intros m Hm1 Hm2. replace (cap - length buf) with ((cap - (length buf + m)) + m) by lia.
        rewrite Nat.mul_add_distr_r. apply Nat.add_le_mono_l.
        rewrite <- (Nat.mul_1_l (length ops)) at 1. apply Nat.mul_le_mono_r. lia. }
      destruct (pscr_perform_ok W El Hlt HR)
        as [(s' & m & k' & E1 & Hm & W' & El' & HR' & Hi & Hprog)|(s' & -> & W' & El' & HD & E1)].
      - rewrite E1. cbn [bind].
        destruct (IH s' (buf ++ firstn m ys) (buf ++ ys) l) as (s2 & more & E2 & W2 & H2 & Hc2); auto.
        + unfold pscr_holds. rewrite El'. exists (skipn m ys), k'. split; [exact HR'|].
          now rewrite <- app_assoc, firstn_skipn.
        + destruct (pscr_wf_cap W') as [_ Hc']. rewrite app_length, firstn_length, Nat.min_l in Hc' by lia.
          rewrite Hi, app_length, firstn_length, Nat.min_l by lia.
          destruct Hprog as [H|H].
          * pose proof (@cyc_dist_lt (length ops) ((ps_index s + 1) mod length ops) j).
            specialize (Hmul m). lia.
          * assert (m = 0 \/ 1 <= m) as [->|Hm1] by lia.
            -- rewrite Nat.add_0_r. enough (cyc_dist (length ops) ((ps_index s + 1) mod length ops) j
                 < cyc_dist (length ops) (ps_index s) j) by lia.
               apply cyc_dist_step; [apply W|lia|]. intros Eq. rewrite Eq in H. congruence.
            -- pose proof (@cyc_dist_lt (length ops) ((ps_index s + 1) mod length ops) j).
            specialize (Hmul m). lia.
        + exists s2, (firstn m ys ++ more). rewrite app_assoc. splits; auto.
      - rewrite E1. cbn [bind]. rewrite app_nil_r in *.
        assert (Hgo : forall l', l' = l -> exists s'0 more,
          pscr_fill_loop dbg fuel P (ps_with_last (Some l') s') = Ret s'0 /\
          pscr_wf cap ops s'0 (buf ++ more) /\ pscr_holds s'0 (buf ++ more) buf l /\
          (ps_last s'0 = None -> length (buf ++ more) = cap)).
        { intros l' ->. destruct fuel as [|fuel']; [lia|]. cbn [pscr_fill_loop ps_with_last ps_last].
          exists (ps_with_last (Some l) s'), []. rewrite app_nil_r.
          splits; auto; try (unfold pscr_holds; cbn; now auto). }
        destruct l; apply Hgo; reflexivity.
    Qed.

    Lemma pscr_fill_queue_ok : forall fuel s buf xs l,
      Datatypes.S cap * length ops <= fuel ->
      pscr_wf cap ops s buf -> pscr_holds s buf xs l ->
      (exists s', xs = [] /\ pscr_fill_queue dbg fuel P s = Ret (s', Some l) /\ D (ps_inner s') /\
         pscr_wf cap ops s' [] /\ ps_last s' = None) \/
      (exists s' more, pscr_fill_queue dbg fuel P s = Ret (s', None) /\ pscr_wf cap ops s' (buf ++ more) /\
         pscr_holds s' (buf ++ more) xs l /\ buf ++ more <> [] /\
         (ps_last s' = None -> length (buf ++ more) = cap)).
    Proof.
      intros fuel s buf xs l Hf W HH. destruct OK as [_ (j & o & Hj & Ho)].
      assert (Hjl : j < length ops) by (apply nth_error_Some; congruence).
      destruct (@pscr_fill_loop_ok j o Hj Ho fuel s buf xs l W HH) as (s' & more & E1 & W' & HH' & Hc).
      { pose proof (@cyc_dist_lt (length ops) (ps_index s) j).
        enough ((cap - length buf) * length ops <= cap * length ops) by (cbn in Hf; lia).
        apply Nat.mul_le_mono_r. lia. }
      unfold pscr_fill_queue. rewrite E1. cbn [bind]. rewrite (pscr_wf_len W').
      destruct (Nat.eqb_spec (length (buf ++ more)) 0) as [E0|E0].
      - left. apply length_zero_iff_nil in E0. rewrite E0 in *. unfold pscr_holds in HH'.
        destruct (ps_last s') as [l'|].
        + destruct HH' as (-> & -> & HD). exists (ps_with_last None s'). splits; auto.
        + specialize (Hc eq_refl). destruct W as ((H0 & _) & _). cbn in Hc. lia.
      - right. exists s', more. splits; auto. intros H. rewrite H in E0. cbn in E0. lia.
    Qed.

    Lemma pscr_core : forall fuel, Datatypes.S cap * length ops <= fuel ->
      lawful_producer_core (pscr_producer dbg fuel P) (pscr_rel cap ops) pscr_end.
    Proof.
      intros fuel Hf. constructor.
      - intros s xs l k (buf & W & HH & Hk). unfold pscr_holds in HH. destruct (ps_last s).
        + destruct HH as (_ & -> & _). exact Hk.
        + destruct HH as (ys & k' & _ & ->). rewrite app_length. lia.
      - intros s xs l k (buf & W & HH & Hk). exists buf. splits; auto. lia.
      - intros s x xs l k (buf & W & HH & Hk). cbn. unfold pscr_produce.
        destruct (@pscr_fill_queue_ok _ _ _ _ _ Hf W HH) as [(s' & Hx & _)|(s' & more & E1 & W' & HH' & Hne & Hc)]; [discriminate|].
        rewrite E1. cbn [bind].
        destruct (buf ++ more) as [|y bs] eqn:Eb; [congruence|]. pose proof W' as (HQ & Ho & Hi).
        destruct (lq_dequeue (fixed_lawful cap) HQ) as (b & E2 & HQ'). rewrite E2. cbn.
        assert (y = x /\ pscr_holds (ps_with_buffer b s') bs xs l) as [-> HH2].
        { unfold pscr_holds in *. cbn. destruct (ps_last s').
          - destruct HH' as (-> & Hx & HD). injection Hx as -> ->. auto.
          - destruct HH' as (ys & k' & HR & Hx). injection Hx as -> ->. split; [reflexivity|eauto]. }
        eexists. split; [reflexivity|]. exists bs. splits; auto.
        + unfold pscr_wf; cbn; auto.
        + destruct buf; cbn in Hk; [lia|]. cbn in Eb. injection Eb as -> <-. rewrite app_length. lia.
      - intros s l k (buf & W & HH & Hk). cbn. unfold pscr_produce.
        destruct (@pscr_fill_queue_ok _ _ _ _ _ Hf W HH) as [(s' & _ & E1 & HD & _)|(s' & more & E1 & W' & HH' & Hne & Hc)].
        + rewrite E1. exists s'. split; [destruct l; reflexivity|exact HD].
        + unfold pscr_holds in HH'. destruct (ps_last s').
          * destruct HH' as (_ & Hx & _). congruence.
          * destruct HH' as (ys & k' & _ & Hx). symmetry in Hx. apply app_eq_nil in Hx. tauto.
      - intros s xs l k (buf & W & HH & Hk) Hx. cbn. unfold pscr_expose.
        destruct (@pscr_fill_queue_ok _ _ _ _ _ Hf W HH) as [(s' & Hx' & _)|(s' & more & E1 & W' & HH' & Hne & Hc)]; [congruence|].
        rewrite E1. cbn [bind]. pose proof W' as (HQ & Ho & Hi).
        destruct (lq_expose_items (fixed_lawful cap) HQ Hne) as (b & sl & rest & E2 & Hsl & Hb & HQ').
        rewrite E2. cbn.
        assert (exists rest', xs = sl ++ rest') as [rest' Hxs].
        { unfold pscr_holds in HH'. destruct (ps_last s').
          - destruct HH' as (_ & -> & _). eauto.
          - destruct HH' as (ys & k' & _ & ->). rewrite Hb, <- app_assoc. eauto. }
        eexists _, sl, rest'. splits; [reflexivity|auto|auto|].
        exists (buf ++ more). splits.
        + unfold pscr_wf; cbn; auto.
        + exact HH'.
        + rewrite Hb, app_length. lia.
      - intros s l k (buf & W & HH & Hk). cbn. unfold pscr_expose.
        destruct (@pscr_fill_queue_ok _ _ _ _ _ Hf W HH) as [(s' & _ & E1 & HD & _)|(s' & more & E1 & W' & HH' & Hne & Hc)].
        + rewrite E1. exists s'. split; [destruct l; reflexivity|exact HD].
        + unfold pscr_holds in HH'. destruct (ps_last s').
          * destruct HH' as (_ & Hx & _). congruence.
          * destruct HH' as (ys & k' & _ & Hx). symmetry in Hx. apply app_eq_nil in Hx. tauto.
      - intros s xs l k n (buf & W & HH & Hk) H1 Hn. cbn. unfold pscr_consider. pose proof W as (HQ & Ho & Hi).
        destruct (lq_consider_dequeued (fixed_lawful cap) n HQ) as (b & E1 & HQ'); [lia|].
        rewrite E1. cbn. eexists. split; [reflexivity|]. exists (skipn n buf). splits.
        + unfold pscr_wf; cbn; auto.
        + unfold pscr_holds in *. cbn. destruct (ps_last s).
          * destruct HH as (-> & -> & HD). auto.
          * destruct HH as (ys & k' & HR & ->). exists ys, k'. split; [exact HR|].
            rewrite skipn_app. replace (n - length buf) with 0 by lia. reflexivity.
        + rewrite skipn_length. lia.
    Qed.

    Lemma pscr_lawful : forall fuel, Datatypes.S cap * length ops <= fuel ->
      lawful_producer (pscr_producer dbg fuel P) (pscr_rel cap ops) pscr_end.
    Proof. intros fuel Hf. apply default_lawful_producer; [now apply pscr_core|reflexivity]. Qed.

    (** [slurp] is fine as long as more than [cap] items are still to come. *)
    Lemma pscr_slurp_ok : forall fuel s xs l k, Datatypes.S cap * length ops <= fuel ->
      lawful_slurp P R D -> pscr_rel cap ops s xs l k -> cap < length xs ->
      exists s', p_slurp (pscr_producer dbg fuel P) s = Ret (s', Ok tt) /\ pscr_rel cap ops s' xs l k.
    Proof.
      intros fuel s xs l k Hf HS (buf & W & HH & Hk) Hlen. cbn. unfold pscr_slurp.
      destruct (@pscr_fill_queue_ok _ _ _ _ _ Hf W HH) as [(s' & -> & _)|(s' & more & E1 & W' & HH' & Hne & Hc)].
      { cbn in Hlen. lia. }
      rewrite E1. cbn [bind]. unfold pscr_slurp_inner. destruct (pscr_wf_cap W') as [_ Hcap].
      unfold pscr_holds in HH'. destruct (ps_last s') eqn:El.
      { destruct HH' as (_ & -> & _). lia. }
      destruct HH' as (ys & k' & HR & Hx). pose proof W' as (HQ & Ho & Hi).
      destruct (HS _ _ _ _ HR) as [(i' & E2 & HR')|(i' & e & E2 & -> & -> & HD)].
      - rewrite E2. cbn. eexists. split; [reflexivity|]. exists (buf ++ more). splits.
        + unfold pscr_wf; cbn; auto.
        + unfold pscr_holds. cbn. rewrite El. eauto.
        + rewrite app_length. lia.
      - rewrite app_nil_r in Hx. subst xs. lia.
    Qed.

    (** Otherwise, [slurp] calls [slurp] on an inner producer that has ended. *)
    Lemma pscr_slurp_after_end : forall fuel s xs l k f, Datatypes.S cap * length ops <= fuel ->
      pscr_rel cap ops s xs l k -> length xs < cap -> l = Ok f ->
      exists s', D (ps_inner s') /\ ps_last s' = Some (Ok f) /\
        p_slurp (pscr_producer dbg fuel P) s = pscr_slurp_inner P s'.
    Proof.
      intros fuel s xs l k f Hf (buf & W & HH & Hk) Hlen ->. cbn. unfold pscr_slurp.
      destruct (@pscr_fill_queue_ok _ _ _ _ _ Hf W HH) as [(s' & -> & E1 & HD & W' & El)|(s' & more & E1 & W' & HH' & Hne & Hc)].
      - rewrite E1. cbn [bind]. exists (ps_with_last (Some (Ok f)) s'). splits; [exact HD|reflexivity|reflexivity].
      - rewrite E1. cbn [bind]. exists s'. unfold pscr_holds in HH'. destruct (ps_last s') eqn:El.
        + destruct HH' as (-> & _ & HD). splits; auto.
        + specialize (Hc eq_refl). destruct HH' as (ys & k' & _ & ->).
          rewrite app_length in Hlen. lia.
    Qed.
  End Fixed.

  (** The operations after [new_with_capacity]. *)
  Definition pscr_operations (ops : list pscr_op) : list pscr_op :=
    if pscr_make_progress ops then ops else ops ++ [ScProduce].

  Lemma pscr_operations_ok : forall ops, Forall pscr_op_ok ops -> pscr_ops_ok (pscr_operations ops).
  Proof.
    intros ops Hf. unfold pscr_operations. destruct (pscr_make_progress ops) eqn:Ep.
    - split; [exact Hf|]. clear Hf. induction ops as [|o ops IH]; [discriminate|].
      destruct o; [exists 0, ScProduce|exists 0, (ScConsiderProduced n)|]; try (split; [reflexivity|discriminate]).
      destruct (IH Ep) as (j & o & Hj & Ho). exists (Datatypes.S j), o. auto.
    - split; [apply Forall_app; split; [exact Hf|repeat constructor]|].
      exists (length ops), ScProduce. split; [|discriminate].
      rewrite nth_error_app2, Nat.sub_diag by lia. reflexivity.
  Qed.

  Lemma pscr_operations_slurp : forall ops, In ScSlurp (pscr_operations ops) -> In ScSlurp ops.
  Proof.
    intros ops. unfold pscr_operations. destruct (pscr_make_progress ops); auto.
    rewrite in_app_iff. intros [H|[H|[]]]; [auto|discriminate].
  Qed.

  Lemma pscr_operations_length : forall ops, length (pscr_operations ops) <= Datatypes.S (length ops).
  Proof. intros ops. unfold pscr_operations. destruct (pscr_make_progress ops); [lia|]. rewrite app_length. cbn. lia. Qed.

  Lemma pscr_new_rel : forall x0 s ops cap xs l k, 0 < cap -> R s xs l k -> Forall pscr_op_ok ops ->
    pscr_rel cap (pscr_operations ops) (pscr_new_with_capacity x0 s ops cap) xs l 0.
  Proof.
    intros x0 s ops cap xs l k Hc HR Hf. exists []. splits; [|exists xs, k; auto|cbn; lia].
    unfold pscr_wf, pscr_new_with_capacity, fixed_new. cbn. splits.
    - now apply fixed_new_R.
    - reflexivity.
    - destruct (pscr_operations_ok Hf) as [_ (j & o & Hj & _)].
      assert (j < length (pscr_operations ops)) by (apply nth_error_Some; congruence). lia.
  Qed.
End Producer.

(** ** Consumer *)
Section Consumer.
  Context {S A T F E : Type} (x0 : T) (C : bulk_consumer S T F E) (M : machine A T F E)
    (R : S -> A -> nat -> list T -> Prop) (D : S -> A -> Prop).
  Hypothesis L : lawful_consumer_core C M R D.

  Definition cscr_op_ok (o : cscr_op) : Prop :=
    match o with ScConsumeSlots n => 1 <= n | _ => True end.

  Definition cscr_ops_ok (ops : list cscr_op) : Prop :=
    Forall cscr_op_ok ops /\ exists j o, nth_error ops j = Some o /\ o <> ScFlush.

  Definition cscr_wf (cap : nat) (ops : list cscr_op) (s : cscr S T) (pend : list T) (k : nat) (w : list T) : Prop :=
    fixed_R cap (cs_buffer s) pend k w /\ cs_operations s = ops /\ cs_index s < length ops.

  Definition cscr_rel (cap : nat) (ops : list cscr_op) (s : cscr S T) (a : A) (pend : list T) (k : nat) (w : list T) : Prop :=
    cscr_wf cap ops s pend k w /\ R (cs_inner s) a 0 [].

  Definition cscr_end (s : cscr S T) (a : A) : Prop := D (cs_inner s) a.

  Section Fixed.
    Variables (cap : nat) (ops : list cscr_op).
    Hypothesis OK : cscr_ops_ok ops.

    Lemma cscr_wf_len : forall s pend k w, cscr_wf cap ops s pend k w -> cs_len s = length pend.
    Proof. intros s pend k w (HQ & _). exact (lq_len (fixed_lawful cap) HQ). Qed.

    Lemma cscr_wf_cap : forall s pend k w, cscr_wf cap ops s pend k w ->
      fixed_capacity (cs_buffer s) = cap /\ length pend <= cap.
    Proof. intros s pend k w ((_ & Hc & _ & _ & Hl & _) & _). lia. Qed.

    Lemma cscr_advance_ok : forall s pend k w, cscr_wf cap ops s pend k w ->
      cscr_advance s = Ret (mk_cscr (cs_inner s) (cs_buffer s) ops ((cs_index s + 1) mod length ops)).
    Proof.
      intros s pend k w (HQ & Ho & Hi). unfold cscr_advance. rewrite Ho, cmod_ok by lia. reflexivity.
    Qed.

    Lemma cscr_perform_ok : forall dbg s a pend k w,
      cscr_rel cap ops s a pend k w -> pend <> [] ->
      (exists s' m a', cscr_perform_operation dbg x0 C s = Ret (s', Ok tt) /\ m <= length pend /\
         m_forwards M a (firstn m pend) a' /\ cscr_rel cap ops s' a' (skipn m pend) k w /\
         cs_index s' = (cs_index s + 1) mod length ops /\
         (1 <= m \/ nth_error ops (cs_index s) = Some ScFlush)) \/
      (exists s' e a', cscr_perform_operation dbg x0 C s = Ret (s', Err e) /\
         m_refuses M a pend e a' /\ D (cs_inner s') a').
    Proof.
      intros dbg s a pend k w [W HR] Hne. pose proof W as (HQ & Ho & Hi).
      assert (Hlen : 0 < length pend) by (destruct pend; [congruence|cbn; lia]).
      unfold cscr_perform_operation. rewrite debug_assert_true.
      2: { rewrite (cscr_wf_len W). now apply Nat.ltb_lt. }
      rewrite Ho. unfold index. destruct (nth_error ops (cs_index s)) as [o|] eqn:En.
      2: { apply nth_error_None in En. lia. }
      cbn [bind].
      assert (Hok : cscr_op_ok o).
      { destruct OK as [Hf _]. rewrite Forall_forall in Hf. apply Hf. eapply nth_error_In; eauto. }
      destruct o as [|n|].
      - destruct pend as [|x pend]; [congruence|].
        destruct (lq_dequeue (fixed_lawful cap) HQ) as (b & E1 & HQ'). rewrite E1. cbn [bind expect].
        unfold cs_with_buffer. cbn [cs_inner].
        destruct (lc_consume L x HR) as (i' & E2 & HR'). rewrite E2. cbn [bind].
        destruct (m_step M x a) as [a' [[]|e]] eqn:Em; cbn [snd] in *.
        + left. eexists _, 1, a'.
          erewrite cscr_advance_ok with (pend := pend) (k := k) (w := w).
          2: { unfold cscr_wf, cs_with_inner; cbn; splits; auto. }
          cbn [bind]. splits; [reflexivity|cbn; lia| | |cbn; auto|left; lia].
          * exists [EvItem x]. cbn. rewrite Em. auto.
          * split; [|exact HR']. unfold cscr_wf, cs_with_inner; cbn [cs_buffer cs_operations cs_index]; splits; auto.
            apply Nat.mod_upper_bound. lia.
        + right. eexists _, e, a'. splits; [reflexivity| |exact HR'].
          exists [], (EvItem x), a, pend. cbn. auto.
      - cbn in Hok.
        destruct (lc_expose L HR) as [(i' & sl & E1 & Hsl & HR')|(i' & e & a' & E1 & Hall & HD)]; rewrite E1; cbn [bind].
        + unfold cs_with_inner, cs_with_buffer. cbn [cs_inner cs_buffer cs_operations cs_index].
          destruct (lawful_bulk_dequeue (fixed_lawful cap) (repeat x0 (Nat.min sl n)) HQ)
            as (b & m & E2 & Hm1 & Hm2 & Hm3 & HQ').
          rewrite E2. cbn [bind]. rewrite repeat_length in Hm1.
          assert (Hm : 1 <= m).
          { destruct (Nat.eq_dec m 0) as [E0|E0]; [|lia]. apply Hm3 in E0. destruct E0 as [E0|E0]; [congruence|].
            apply (f_equal (@length T)) in E0. rewrite repeat_length in E0. cbn in E0. lia. }
          assert (Hl : length (firstn m pend) = m) by (rewrite firstn_length; lia).
          rewrite firstn_app, firstn_firstn, Nat.min_id, Hl, Nat.sub_diag, app_nil_r.
          assert (HR2 : R (c_write C (firstn m pend) i') a sl (firstn m pend)).
          { rewrite <- (overlay_nil (firstn m pend)) at 2. apply (lc_write L _ HR'). lia. }
          pose proof (lc_consume_slots L m HR2 ltac:(lia) ltac:(lia)) as HR3.
          rewrite firstn_firstn, Nat.min_id in HR3.
          destruct (m_feed M (firstn m pend) a) as [[a' m'] [e|]] eqn:Em.
          * destruct HR3 as (i3 & E3 & HD). rewrite E3. cbn [bind].
            right. eexists _, e, a'. splits; [reflexivity| |exact HD].
            rewrite <- (firstn_skipn m pend). apply m_refuses_more. eapply m_feed_refuses; eassumption.
          * destruct HR3 as (i3 & E3 & HR4). rewrite E3. cbn [bind].
            left. eexists _, m, a'.
            erewrite cscr_advance_ok with (pend := skipn m pend) (k := k) (w := w).
            2: { unfold cscr_wf; cbn [cs_buffer cs_operations cs_index]; splits; auto. }
            cbn [bind]. splits; [reflexivity|lia| | |cbn; auto|left; lia].
            -- eapply m_feed_forwards; eassumption.
            -- split; [|cbn; exact (lc_forget L HR4)]. unfold cscr_wf; cbn [cs_buffer cs_operations cs_index]; splits; auto.
               apply Nat.mod_upper_bound. lia.
        + right. eexists _, e, a'. splits; [reflexivity| |exact HD].
          destruct pend as [|x pend]; [congruence|]. exists [], (EvItem x), a, pend. cbn. auto.
      - destruct (lc_flush L HR) as (i' & E1 & HR'). rewrite E1. cbn [bind].
        destruct (m_flush M a) as [a' [[]|e]] eqn:Em; cbn [snd] in *.
        + left. eexists _, 0, a'.
          erewrite cscr_advance_ok with (pend := pend) (k := k) (w := w).
          2: { unfold cscr_wf, cs_with_inner; cbn; splits; auto. }
          cbn [bind]. splits; [reflexivity|lia| | |cbn; auto|right; auto].
          * apply m_flush_forwards. exact Em.
          * split; [|exact HR']. unfold cscr_wf, cs_with_inner; cbn [cs_buffer cs_operations cs_index]; splits; auto.
            apply Nat.mod_upper_bound. lia.
        + right. eexists _, e, a'. splits; [reflexivity| |exact HR'].
          exists [], EvFlush, a, pend. cbn. auto.
    Qed.

    Lemma cscr_drain_fuel : forall dbg j o, nth_error ops j = Some o -> o <> ScFlush ->
      forall fuel s a pend k w, cscr_rel cap ops s a pend k w ->
      length pend * length ops + cyc_dist (length ops) (cs_index s) j < fuel ->
      (exists s' a', cscr_drain dbg x0 fuel C s = Ret (s', Ok tt) /\ m_forwards M a pend a' /\
         cscr_rel cap ops s' a' [] k w) \/
      (exists s' e a', cscr_drain dbg x0 fuel C s = Ret (s', Err e) /\ m_refuses M a pend e a' /\ D (cs_inner s') a').
    Proof.
      intros dbg j o Hj Ho. assert (Hjl : j < length ops) by (apply nth_error_Some; congruence).
      induction fuel as [|fuel IH]; intros s a pend k w HR Hf; [exfalso; exact (Nat.nlt_0_r _ Hf)|].
      cbn [cscr_drain]. pose proof HR as [W _]. rewrite (cscr_wf_len W).
      destruct (Nat.ltb_spec 0 (length pend)) as [Hlt|Hge].
      2: { left. exists s, a. destruct pend; [|cbn in Hge; lia]. splits; auto. apply m_forwards_nil. }
      destruct (cscr_perform_ok dbg HR) as [(s1 & m & a1 & E1 & Hm & Hfw & HR1 & Hi & Hprog)|(s1 & e & a1 & E1 & Hr & HD)].
      { intros ->. cbn in Hlt. lia. }
      - rewrite E1. cbn [bind].
        assert (Hmul : forall q, 1 <= q -> q <= length pend ->
          (length pend - q) * length ops + length ops <= length pend * length ops).
        { intros q H1 H2. replace (length pend) with ((length pend - q) + q) at 2 by lia.
          rewrite Nat.mul_add_distr_r. apply Nat.add_le_mono_l.
          rewrite <- (Nat.mul_1_l (length ops)) at 1. apply Nat.mul_le_mono_r. lia. }
        destruct (IH s1 a1 (skipn m pend) k w HR1) as [(s' & a' & E2 & H2 & H3)|(s' & e & a' & E2 & H2 & H3)].
        + rewrite Hi, skipn_length. destruct Hprog as [H|H].
          * pose proof (@cyc_dist_lt (length ops) ((cs_index s + 1) mod length ops) j). specialize (Hmul m). lia.
          * assert (m = 0 \/ 1 <= m) as [->|Hm1] by lia.
            -- rewrite Nat.sub_0_r. enough (cyc_dist (length ops) ((cs_index s + 1) mod length ops) j
                 < cyc_dist (length ops) (cs_index s) j) by lia.
               apply cyc_dist_step; [apply W|lia|]. intros Eq. rewrite Eq in H. congruence.
            -- pose proof (@cyc_dist_lt (length ops) ((cs_index s + 1) mod length ops) j). specialize (Hmul m). lia.
        + left. exists s', a'. splits; auto. rewrite <- (firstn_skipn m pend). eapply m_forwards_trans; eauto.
        + right. exists s', e, a'. splits; auto. rewrite <- (firstn_skipn m pend). eapply m_forwards_refuses; eauto.
      - rewrite E1. cbn [bind]. right. exists s1, e, a1. splits; auto.
    Qed.

    Lemma cscr_drain_ok : forall dbg fuel s a pend k w, Datatypes.S cap * length ops <= fuel ->
      cscr_rel cap ops s a pend k w ->
      (exists s' a', cscr_drain dbg x0 fuel C s = Ret (s', Ok tt) /\ m_forwards M a pend a' /\
         cscr_rel cap ops s' a' [] k w) \/
      (exists s' e a', cscr_drain dbg x0 fuel C s = Ret (s', Err e) /\ m_refuses M a pend e a' /\ D (cs_inner s') a').
    Proof.
      intros dbg fuel s a pend k w Hf HR. destruct OK as [_ (j & o & Hj & Ho)].
      assert (Hjl : j < length ops) by (apply nth_error_Some; congruence).
      eapply (@cscr_drain_fuel dbg j o Hj Ho); [exact HR|].
      pose proof (@cyc_dist_lt (length ops) (cs_index s) j). destruct HR as [W _].
      destruct (cscr_wf_cap W) as [_ Hc].
      enough (length pend * length ops <= cap * length ops) by (cbn in Hf; lia).
      apply Nat.mul_le_mono_r. exact Hc.
    Qed.

    Lemma cscr_with_buffer_rel : forall s a b pend k w pend' k' w', cscr_rel cap ops s a pend k w ->
      fixed_R cap b pend' k' w' -> cscr_rel cap ops (cs_with_buffer b s) a pend' k' w'.
    Proof. intros s a b pend k w pend' k' w' [(HQ & Ho & Hi) HR] HQ'. split; [|exact HR]. unfold cscr_wf; cbn; auto. Qed.

    (** The release build. *)
    Lemma cscr_consume_ok : forall fuel x s a pend k w, Datatypes.S cap * length ops <= fuel ->
      cscr_rel cap ops s a pend k w ->
      (exists s' out pend' a', cscr_consume false x0 fuel C x s = Ret (s', Ok tt) /\ out ++ pend' = pend ++ [x] /\
         length pend' <= cap /\ m_forwards M a out a' /\ cscr_rel cap ops s' a' pend' 0 []) \/
      (exists s' e a', cscr_consume false x0 fuel C x s = Ret (s', Err e) /\ m_refuses M a pend e a' /\ D (cs_inner s') a').
    Proof.
      intros fuel x s a pend k w Hf HR. unfold cscr_consume. pose proof HR as [W _]. pose proof W as (HQ & Ho & Hi).
      destruct (cscr_wf_cap W) as [_ Hcap]. assert (Hc0 : 0 < cap) by apply HQ.
      destruct (Nat.eq_dec (length pend) cap) as [Eq|Ne].
      - rewrite (lq_enqueue_full (fixed_lawful cap) x HQ Eq). cbn [bind].
        assert (HR1 : cscr_rel cap ops (cs_with_buffer (cs_buffer s) s) a pend k w) by (eapply cscr_with_buffer_rel; eauto).
        destruct (@cscr_drain_ok false fuel _ a pend k w Hf HR1) as [(s1 & a1 & E1 & H1 & HR2)|(s1 & e & a1 & E1 & H1 & HD)];
          rewrite E1; cbn [bind].
        + pose proof HR2 as [(HQ2 & _) _].
          destruct (lq_enqueue (fixed_lawful cap) x HQ2 Hc0) as (b & E2 & HQ3). rewrite E2. cbn.
          left. eexists _, pend, [x], a1. splits; [reflexivity|reflexivity|cbn; lia|exact H1|].
          eapply cscr_with_buffer_rel; eauto.
        + right. exists s1, e, a1. auto.
      - destruct (lq_enqueue (fixed_lawful cap) x HQ ltac:(lia)) as (b & E1 & HQ'). rewrite E1. cbn [bind].
        left. eexists _, [], (pend ++ [x]), a. splits; [reflexivity|reflexivity| |apply m_forwards_nil|].
        + rewrite app_length. cbn. lia.
        + eapply cscr_with_buffer_rel; eauto.
    Qed.

    (** The debug build, when the buffer is full and the inner consumer accepts what it holds. *)
    Lemma cscr_consume_panics : forall fuel x s a pend k w, Datatypes.S cap * length ops <= fuel ->
      cscr_rel cap ops s a pend k w -> length pend = cap -> (forall e a', ~ m_refuses M a pend e a') ->
      cscr_consume true x0 fuel C x s = Panic.
    Proof.
      intros fuel x s a pend k w Hf HR Eq Hno. unfold cscr_consume. pose proof HR as [W _]. pose proof W as (HQ & Ho & Hi).
      assert (Hc0 : 0 < cap) by apply HQ.
      rewrite (lq_enqueue_full (fixed_lawful cap) x HQ Eq). cbn [bind].
      assert (HR1 : cscr_rel cap ops (cs_with_buffer (cs_buffer s) s) a pend k w) by (eapply cscr_with_buffer_rel; eauto).
      destruct (@cscr_drain_ok true fuel _ a pend k w Hf HR1) as [(s1 & a1 & E1 & H1 & HR2)|(s1 & e & a1 & E1 & H1 & HD)];
        rewrite E1; cbn [bind].
      - pose proof HR2 as [(HQ2 & _) _].
        destruct (lq_enqueue (fixed_lawful cap) x HQ2 Hc0) as (b & E2 & HQ3). rewrite E2. reflexivity.
      - exfalso. exact (Hno _ _ H1).
    Qed.

    Lemma cscr_expose_ok : forall dbg fuel s a pend k w, Datatypes.S cap * length ops <= fuel ->
      cscr_rel cap ops s a pend k w ->
      (exists s' n out pend' a', cscr_expose dbg x0 fuel C s = Ret (s', Ok n) /\ out ++ pend' = pend /\ 1 <= n /\
         length pend' + n <= cap /\ m_forwards M a out a' /\ cscr_rel cap ops s' a' pend' n []) \/
      (exists s' e a', cscr_expose dbg x0 fuel C s = Ret (s', Err e) /\ m_refuses M a pend e a' /\ D (cs_inner s') a').
    Proof.
      intros dbg fuel s a pend k w Hf HR. unfold cscr_expose. pose proof HR as [W _]. pose proof W as (HQ & Ho & Hi).
      destruct (cscr_wf_cap W) as [Hc Hcap]. assert (Hc0 : 0 < cap) by apply HQ.
      rewrite (cscr_wf_len W), Hc. destruct (Nat.ltb_spec (length pend) cap) as [Hlt|Hge].
      - destruct (lq_expose_slots (fixed_lawful cap) HQ Hlt) as (b & n & E1 & Hn1 & Hn2 & HQ'). rewrite E1. cbn.
        left. eexists _, n, [], pend, a. splits; [reflexivity|reflexivity|auto|auto|apply m_forwards_nil|].
        eapply cscr_with_buffer_rel; eauto.
      - destruct (@cscr_drain_ok dbg fuel _ a pend k w Hf HR) as [(s1 & a1 & E1 & H1 & HR2)|(s1 & e & a1 & E1 & H1 & HD)];
          rewrite E1; cbn [bind].
        + pose proof HR2 as [(HQ2 & _) _].
          destruct (lq_expose_slots (fixed_lawful cap) HQ2 Hc0) as (b & n & E2 & Hn1 & Hn2 & HQ'). rewrite E2. cbn.
          left. eexists _, n, pend, [], a1. splits; [reflexivity|apply app_nil_r|auto|auto|exact H1|].
          eapply cscr_with_buffer_rel; eauto.
        + right. exists s1, e, a1. auto.
    Qed.

    Lemma cscr_consume_slots_ok : forall n s a pend k w,
      cscr_rel cap ops s a pend k w -> n <= length w ->
      exists s', cscr_consume_slots (E := E) n s = Ret (s', Ok tt) /\ length pend + n <= cap /\
        cscr_rel cap ops s' a (pend ++ firstn n w) (k - n) (skipn n w).
    Proof.
      intros n s a pend k w HR Hn. unfold cscr_consume_slots. pose proof HR as [(HQ & _) _].
      destruct (lq_wf (fixed_lawful cap) HQ) as (H1 & H2 & H3).
      destruct (lq_consider_enqueued (fixed_lawful cap) n HQ Hn) as (b & E1 & HQ'). rewrite E1. cbn.
      eexists. splits; [reflexivity|lia|]. eapply cscr_with_buffer_rel; eauto.
    Qed.

    Lemma cscr_write_ok : forall ys s a pend k w,
      cscr_rel cap ops s a pend k w -> length ys <= k ->
      cscr_rel cap ops (cscr_write ys s) a pend k (overlay ys w).
    Proof.
      intros ys s a pend k w HR Hy. pose proof HR as [(HQ & _) _]. unfold cscr_write.
      eapply cscr_with_buffer_rel; [exact HR|]. exact (lq_write (fixed_lawful cap) ys HQ Hy).
    Qed.

    Lemma cscr_buffers : forall fuel, Datatypes.S cap * length ops <= fuel ->
      buffers (cscr_consumer false x0 fuel C) M cap (cscr_rel cap ops) cscr_end.
    Proof.
      intros fuel Hf o s [a pend k w|a] HR HP; [|destruct HP]. cbn in HR.
      destruct o; cbn [c_do b_permitted c_permitted] in *.
      - destruct (@cscr_consume_ok fuel x s a pend k w Hf HR)
          as [(s' & out & pend' & a' & E1 & H1 & H2 & H3 & H4)|(s' & e & a' & E1 & H1 & H2)]; cbn; rewrite E1; cbn [bind].
        + eexists _, _, _. splits; [reflexivity| |]; cbn.
          * exists out, pend', a'. splits; auto.
          * exact H4.
        + eexists _, _, _. splits; [reflexivity| |]; cbn.
          * exists a'. split; [exact H1|reflexivity].
          * exact H2.
      - cbn. unfold cscr_close.
        destruct (@cscr_drain_ok false fuel _ a pend k w Hf HR) as [(s1 & a1 & E1 & H1 & HR2)|(s1 & e & a1 & E1 & H1 & HD)];
          rewrite E1; cbn [bind].
        + destruct HR2 as [_ HR2]. destruct (lc_close L f HR2) as (i' & E2 & HD). rewrite E2. cbn [bind].
          eexists _, _, _. splits; [reflexivity| |]; cbn.
          * left. exists a1. splits; auto.
          * exact HD.
        + eexists _, _, _. splits; [reflexivity| |]; cbn.
          * right. exists e. split; [reflexivity|]. exists a1. auto.
          * exact HD.
      - cbn. unfold cscr_flush.
        destruct (@cscr_drain_ok false fuel _ a pend k w Hf HR) as [(s1 & a1 & E1 & H1 & HR2)|(s1 & e & a1 & E1 & H1 & HD)];
          rewrite E1; cbn [bind].
        + destruct HR2 as [(HQ & Ho & Hi) HR2]. destruct (lc_flush L HR2) as (i' & E2 & HR3). rewrite E2. cbn [bind].
          destruct (m_flush M a1) as [a' [[]|e]] eqn:Em; cbn [snd].
          * eexists _, _, _. splits; [reflexivity| |]; cbn.
            -- exists a1, a'. splits; eauto.
            -- split; [|exact HR3]. unfold cscr_wf; cbn; auto.
          * eexists _, _, _. splits; [reflexivity| |]; cbn.
            -- right. exists a1, a'. splits; auto.
            -- exact HR3.
        + eexists _, _, _. splits; [reflexivity| |]; cbn.
          * left. exists a1. split; [exact H1|reflexivity].
          * exact HD.
      - cbn. destruct (@cscr_expose_ok false fuel s a pend k w Hf HR)
          as [(s' & n & out & pend' & a' & E1 & H1 & H2 & H3 & H4 & H5)|(s' & e & a' & E1 & H1 & H2)]; rewrite E1; cbn [bind].
        + eexists _, _, _. splits; [reflexivity| |]; cbn.
          * exists out, pend', a'. splits; auto.
          * exact H5.
        + eexists _, _, _. splits; [reflexivity| |]; cbn.
          * exists a'. split; [exact H1|reflexivity].
          * exact H2.
      - eexists _, _, _. splits; [reflexivity|cbn; reflexivity|]. cbn. apply cscr_write_ok; auto.
      - change (c_consume_slots (cscr_consumer false x0 fuel C) n s) with (cscr_consume_slots (E := E) n s).
        destruct (@cscr_consume_slots_ok n s a pend k w HR) as (s' & E1 & H1 & H2); [lia|]. rewrite E1. cbn [bind].
        eexists _, _, _. splits; [reflexivity| |]; cbn.
        + split; [exact H1|reflexivity].
        + exact H2.
      - cbn. unfold default_bulk_consume.
        destruct (@cscr_expose_ok false fuel s a pend k w Hf HR)
          as [(s' & n & out & pend' & a' & E1 & H1 & H2 & H3 & H4 & H5)|(s' & e & a' & E1 & H1 & H2)]; rewrite E1; cbn [bind].
        + set (m := Nat.min n (length buf)).
          assert (Hm : 1 <= m <= length buf) by (destruct buf; [congruence|cbn in *; lia]).
          assert (Hl : length (firstn m buf) = m) by (rewrite firstn_length; lia).
          pose proof (@cscr_write_ok (firstn m buf) s' a' pend' n [] H5 ltac:(lia)) as H6. rewrite overlay_nil in H6.
          destruct (@cscr_consume_slots_ok m _ a' pend' n _ H6) as (s2 & E2 & H7 & H8); [lia|].
          rewrite firstn_firstn, Nat.min_id in H8. rewrite E2. cbn.
          eexists _, _, _. splits; [reflexivity| |]; cbn.
          * exists out, (pend' ++ firstn m buf), a'. splits; auto; try lia.
            -- rewrite app_assoc. congruence.
            -- rewrite app_length. lia.
          * destruct H8 as [(HQ & H9) H10]. split; [|exact H10]. split; [|exact H9].
            exact (lq_forget (fixed_lawful cap) HQ).
        + eexists _, _, _. splits; [reflexivity| |]; cbn.
          * exists a'. split; [exact H1|reflexivity].
          * exact H2.
    Qed.
  End Fixed.

  Definition cscr_operations (ops : list cscr_op) : list cscr_op :=
    if cscr_make_progress ops then ops else ops ++ [ScConsume].

  Lemma cscr_operations_ok : forall ops, Forall cscr_op_ok ops -> cscr_ops_ok (cscr_operations ops).
  Proof.
    intros ops Hf. unfold cscr_operations. destruct (cscr_make_progress ops) eqn:Ep.
    - split; [exact Hf|]. clear Hf. induction ops as [|o ops IH]; [discriminate|].
      destruct o; [exists 0, ScConsume|exists 0, (ScConsumeSlots n)|]; try (split; [reflexivity|discriminate]).
      destruct (IH Ep) as (j & o & Hj & Ho). exists (Datatypes.S j), o. auto.
    - split; [apply Forall_app; split; [exact Hf|repeat constructor]|].
      exists (length ops), ScConsume. split; [|discriminate].
      rewrite nth_error_app2, Nat.sub_diag by lia. reflexivity.
  Qed.

  Lemma cscr_operations_length : forall ops, length (cscr_operations ops) <= Datatypes.S (length ops).
  Proof. intros ops. unfold cscr_operations. destruct (cscr_make_progress ops); [lia|]. rewrite app_length. cbn. lia. Qed.

  Lemma cscr_new_rel : forall s ops cap a k w, 0 < cap -> R s a k w -> Forall cscr_op_ok ops ->
    cscr_rel cap (cscr_operations ops) (cscr_new_with_capacity x0 s ops cap) a [] 0 [].
  Proof.
    intros s ops cap a k w Hc HR Hf. split; [|exact (lc_forget L HR)].
    unfold cscr_wf, cscr_new_with_capacity, fixed_new. cbn. splits.
    - now apply fixed_new_R.
    - reflexivity.
    - destruct (cscr_operations_ok Hf) as [_ (j & o & Hj & _)].
      assert (j < length (cscr_operations ops)) by (apply nth_error_Some; congruence). lia.
  Qed.
End Consumer.

(** ** What the scramblers do with capacity 0 *)

Lemma pscr_zero_capacity : forall S T F E dbg (P : bulk_producer S T F E) x0 s pat fuel,
  p_produce (pscr_producer dbg (Datatypes.S fuel) P) (pscr_new_with_capacity x0 s pat 0) = Panic /\
  p_expose (pscr_producer dbg (Datatypes.S fuel) P) (pscr_new_with_capacity x0 s pat 0) = Panic.
Proof. intros. split; reflexivity. Qed.

Lemma cscr_zero_capacity : forall S T F E dbg (C : bulk_consumer S T F E) x0 s pat fuel x,
  c_consume (cscr_consumer dbg x0 (Datatypes.S fuel) C) x (cscr_new_with_capacity x0 s pat 0) =
    Ret (cscr_new_with_capacity x0 s pat 0, Ok tt) /\
  c_expose (cscr_consumer dbg x0 (Datatypes.S fuel) C) (cscr_new_with_capacity x0 s pat 0) = Panic.
Proof. intros. destruct dbg; split; reflexivity. Qed.

(** The general form of what [slurp] on an ended inner producer does. *)
Lemma pscr_slurp_after_end_effect : forall S T F E dbg (P : bulk_producer S T F E) R D,
  lawful_producer_core P R D ->
  forall cap ops, (lawful_slurp P R D \/ ~ In ScSlurp ops) -> pscr_ops_ok ops ->
  forall fuel s xs k f, Datatypes.S cap * length ops <= fuel ->
  pscr_rel R D cap ops s xs (Ok f) k -> length xs < cap ->
  exists i, D i /\
    (p_slurp P i = Panic -> p_slurp (pscr_producer dbg fuel P) s = Panic) /\
    (forall i' e, p_slurp P i = Ret (i', Err e) -> exists s',
       p_slurp (pscr_producer dbg fuel P) s = Ret (s', if length xs =? 0 then Err e else Ok tt)).
Proof.
  intros S T F E dbg P R D L cap ops LS OK fuel s xs k f Hf (buf & W & HH & Hk) Hlen. cbn. unfold pscr_slurp.
  destruct (@pscr_fill_queue_ok _ _ _ _ dbg P R D L cap ops LS OK _ _ _ _ _ Hf W HH)
    as [(s' & -> & E1 & HD & W' & El)|(s' & more & E1 & W' & HH' & Hne & Hc)].
  - exists (ps_inner s'). rewrite E1. cbn [bind]. unfold pscr_slurp_inner. cbn [ps_inner ps_with_last].
    splits; [exact HD|intros ->; reflexivity|]. intros i' e ->. cbn [bind].
    unfold ps_with_inner, ps_len. cbn [ps_buffer ps_with_last].
    pose proof (pscr_wf_len W') as Hl. unfold ps_len in Hl. rewrite Hl. cbn. eauto.
  - exists (ps_inner s'). rewrite E1. cbn [bind]. unfold pscr_slurp_inner.
    unfold pscr_holds in HH'. destruct (ps_last s') eqn:El.
    + destruct HH' as (-> & -> & HD). splits; [exact HD|intros ->; reflexivity|]. intros i' e ->. cbn [bind].
      unfold ps_with_inner, ps_len. cbn [ps_buffer].
      pose proof (pscr_wf_len W') as Hl. unfold ps_len in Hl. rewrite Hl. destruct (length (buf ++ more) =? 0); eauto.
    + specialize (Hc eq_refl). destruct HH' as (ys & k' & _ & ->). rewrite app_length in Hlen. lia.
Qed.

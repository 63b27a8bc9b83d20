(** Proofs about the scramblers with an arbitrary [Clone]. *)
From Coq Require Import Bool List Arith Lia.
From Verif Require Import Prelude ListFacts QueueModel QueueSpec QueueProofs Traits Contracts ContractFacts AdaptorSpec
  CloneModel CloneSpec CloneProofs ClosureModel ScramblerModel ScramblerProofs CloneScramblerModel CloneScramblerSpec.
Import ListNotations.
Set Implicit Arguments.

Section Carry.
  Context {W T : Type} (clone : T -> W -> W * option T).

  Lemma carried_app : forall xs1 w ys1 w1, carried clone xs1 w ys1 w1 -> forall xs2 ys2 w2, carried clone xs2 w1 ys2 w2 -> carried clone (xs1 ++ xs2) w (ys1 ++ ys2) w2.
  Proof. induction 1; cbn; intros; [assumption|constructor; eauto|econstructor; eauto]. Qed.

  Lemma clones_carried : forall xs w ys w', clones clone xs w ys w' -> carried clone xs w ys w'.
  Proof. induction 1; econstructor; eauto. Qed.

  Lemma carried_length : forall xs w ys w', carried clone xs w ys w' -> length ys = length xs.
  Proof. induction 1; cbn; auto. Qed.

  Lemma carried_descends : forall xs w ys w', carried clone xs w ys w' -> Forall2 (descends clone) xs ys.
  Proof. induction 1; constructor; auto; [now left|right; eauto]. Qed.

  Lemma clones_descends : forall xs w ys w', clones clone xs w ys w' -> Forall2 (descends clone) xs ys.
  Proof. intros xs w ys w' H. eapply carried_descends, clones_carried, H. Qed.

  Lemma reads_nothing : forall q xs w, reads clone q xs w q xs w.
  Proof. intros q xs w. exists [], []. splits; [reflexivity|constructor|now rewrite app_nil_r]. Qed.

  Lemma reads_more : forall q xs w q1 xs1 w1 q2 xs2 w2, reads clone q xs w q1 xs1 w1 -> reads clone q1 xs1 w1 q2 xs2 w2 -> reads clone q xs w q2 xs2 w2.
  Proof.
    intros q xs w q1 xs1 w1 q2 xs2 w2 (p & p' & -> & H1 & ->) (r & r' & -> & H2 & ->). exists (p ++ r), (p' ++ r').
    rewrite !app_assoc. splits; auto. eapply carried_app; eauto.
  Qed.

  Lemma reads_stumbles : forall q xs w q1 xs1 w1 q2 xs2 w2, reads clone q xs w q1 xs1 w1 -> stumbles clone q1 xs1 w1 q2 xs2 w2 -> stumbles clone q xs w q2 xs2 w2.
  Proof. intros q xs w q1 xs1 w1 q2 xs2 w2 H1 (w3 & n & ys & H2 & H3). exists w3, n, ys. split; [eapply reads_more; eauto|exact H3]. Qed.

  Lemma fixed_bulk_enqueue_cloning : forall cap b items buf w, fixed_R cap b items 0 [] ->
    exists b' w' r, q_bulk_enqueue_cloning clone (fixed_queue T) buf b w = Ret (b', w', r) /\
      match r with
      | Done n => n <= length buf /\ length items + n <= cap /\ (n = 0 <-> length items = cap \/ buf = []) /\
          exists ys, clones clone (firstn n buf) w ys w' /\ fixed_R cap b' (items ++ ys) 0 []
      | Unwound => exists n ys, n <= length buf /\ breaks clone (firstn n buf) w ys w' /\ fixed_R cap b' items 0 []
      end.
  Proof.
    intros cap b items buf w HQ.
    destruct (@bulk_enqueue_cloning_step W T (fixed T) clone (fixed_queue T) cap (fixed_R cap) (fixed_dequeue_cloning clone) (fixed_lawful cap) b items 0 [] buf w HQ)
      as (b' & w' & r & a' & E1 & HA & HR).
    cbn [u_do] in E1. destruct (q_bulk_enqueue_cloning clone (fixed_queue T) buf b w) as [[[b1 w1] r1]| |]; cbn [bind] in E1; [|discriminate|discriminate].
    injection E1 as <- <- <-. exists b1, w1, r1. split; [reflexivity|]. destruct r1 as [n|]; cbn in HA.
    - destruct HA as (H1 & H2 & H3 & ys & H4 & ->). cbn in HR. splits; auto; try (apply H3). eauto.
    - destruct HA as (n & ys & H1 & H2 & H3 & ->). cbn in HR. eauto 6.
  Qed.
End Carry.

(** ** The producer *)
Lemma s_permitted_dec : forall T (a : sabs T) o, s_permitted a o \/ ~ s_permitted a o.
Proof.
  intros T [q xs k|] [| |n|buf]; cbn; auto; try (right; tauto).
  - destruct (le_dec 1 k), (le_dec n k); tauto.
  - destruct buf; [right; congruence|left; discriminate].
Qed.

Section Producer.
  Context {W S T F E : Type} (clone : T -> W -> W * option T) (dbg : bool) (produce : S -> W -> outcome (S * W * caught (res (T + F) E))) (P : bulk_producer S T F E)
    (R : S -> list T -> res F E -> nat -> Prop) (D : S -> Prop).
  Hypothesis L : lawful_producer_core P R D.
  Hypothesis Gv : gives clone produce R D.
  Variables (cap : nat) (ops : list pscr_op).
  Hypothesis LS : lawful_slurp P R D \/ ~ In ScSlurp ops.
  Hypothesis OK : pscr_ops_ok ops.

  (** Items in the queue, then what the inner producer holds. *)
  Definition cl_at (s : pscr S T F E) (q xs : list T) (l : res F E) : Prop :=
    pscr_wf cap ops s q /\
    match ps_last s with
    | None => exists k, R (ps_inner s) xs l k
    | Some l' => l' = l /\ xs = [] /\ D (ps_inner s)
    end.

  Lemma cl_perform : forall s q xs l w, cl_at s q xs l -> ps_last s = None -> length q < cap ->
    (exists s' q' xs' w', pscr_perform_operation_cloning clone dbg produce P s w = Ret (s', w', Done (Ok None)) /\
       cl_at s' q' xs' l /\ ps_last s' = None /\ reads clone q xs w q' xs' w' /\ ps_index s' = (ps_index s + 1) mod length ops /\
       length q <= length q' /\ (length q < length q' \/ nth_error ops (ps_index s) = Some ScSlurp)) \/
    (exists s' w', pscr_perform_operation_cloning clone dbg produce P s w = Ret (s', w', Unwound) /\ cl_at s' q xs l /\ stumbles clone q xs w q xs w') \/
    (exists s', xs = [] /\ pscr_wf cap ops s' q /\ ps_last s' = None /\ D (ps_inner s') /\
       pscr_perform_operation_cloning clone dbg produce P s w = Ret (s', w, Done match l with Ok f => Ok (Some f) | Err e => Err e end)).
  Proof.
    intros s q xs l w [Wf Hl] Hlast Hlt. rewrite Hlast in Hl. destruct Hl as [k HR]. pose proof Wf as (HQ & Ho & Hi).
    unfold pscr_perform_operation_cloning. rewrite debug_assert_true.
    2: { rewrite (pscr_wf_len Wf). destruct (pscr_wf_cap Wf) as [-> _]. now apply Nat.ltb_lt. }
    rewrite Ho. unfold index. destruct (nth_error ops (ps_index s)) as [o|] eqn:En.
    2: { apply nth_error_None in En. lia. }
    cbn [bind].
    assert (Hin : In o ops) by (eapply nth_error_In; eauto).
    assert (Hok : pscr_op_ok o).
    { destruct OK as [Hf _]. rewrite Forall_forall in Hf. now apply Hf. }
    destruct o as [|n|].
    - destruct xs as [|x xs].
      + destruct (Gv w HR) as (i' & E1 & HD). rewrite E1. cbn [bind].
        right; right. exists (ps_with_inner i' s). splits; auto. destruct l; reflexivity.
      + assert (Hgot : forall i' y w', produce (ps_inner s) w = Ret (i', w', Done (Ok (inl y))) -> R i' xs l (k - 1) -> carried clone [x] w [y] w' -> exists s' q' xs' w',
          pscr_perform_operation_cloning clone dbg produce P s w = Ret (s', w', Done (Ok None)) /\
          cl_at s' q' xs' l /\ ps_last s' = None /\ reads clone q (x :: xs) w q' xs' w' /\ ps_index s' = (ps_index s + 1) mod length ops /\
          length q <= length q' /\ (length q < length q' \/ nth_error ops (ps_index s) = Some ScSlurp)).
        { intros i' y w' E1 HR' Hcar. unfold pscr_perform_operation_cloning. rewrite debug_assert_true.
          2: { rewrite (pscr_wf_len Wf). destruct (pscr_wf_cap Wf) as [-> _]. now apply Nat.ltb_lt. }
          rewrite Ho. unfold index. rewrite En. cbn [bind]. rewrite E1. cbn [bind].
          destruct (lq_enqueue (fixed_lawful cap) y HQ Hlt) as (b & E2 & HQ').
          cbn [ps_with_inner ps_buffer]. rewrite E2. cbn [bind].
          rewrite debug_assert_true by reflexivity.
          eexists _, (q ++ [y]), xs, w'.
          erewrite pscr_advance_ok with (cap := cap) (ops := ops) (buf := q ++ [y]).
          2: { unfold pscr_wf, ps_with_buffer, ps_with_inner; cbn; splits; auto. }
          cbn [bind]. splits; [reflexivity| |cbn; auto| |cbn; auto|rewrite app_length; lia|left; rewrite app_length; cbn; lia].
          * unfold cl_at, pscr_wf, ps_with_buffer, ps_with_inner; cbn [ps_buffer ps_operations ps_index ps_inner ps_last]. rewrite Hlast.
            splits; auto; [apply Nat.mod_upper_bound; lia|eauto].
          * exists [x], [y]. splits; [reflexivity|exact Hcar|reflexivity]. }
        unfold pscr_perform_operation_cloning in Hgot. rewrite debug_assert_true in Hgot.
        2: { rewrite (pscr_wf_len Wf). destruct (pscr_wf_cap Wf) as [-> _]. now apply Nat.ltb_lt. }
        rewrite Ho in Hgot. unfold index in Hgot. rewrite En in Hgot. cbn [bind] in Hgot.
        destruct (Gv w HR) as [(i' & E1 & HR')|[(i' & w' & y & Ec & E1 & HR')|(i' & w' & Ec & E1 & HR')]].
        * left. eapply Hgot; eauto. repeat constructor.
        * left. eapply Hgot; eauto. econstructor; eauto. constructor.
        * right; left. rewrite E1. cbn [bind]. eexists _, w'. split; [reflexivity|]. split.
          -- unfold cl_at, pscr_wf, ps_with_inner; cbn [ps_buffer ps_operations ps_index ps_inner ps_last]. rewrite Hlast. splits; eauto.
          -- exists w, 1, []. split; [apply reads_nothing|]. now constructor.
    - cbn in Hok. destruct xs as [|y ys0].
      + destruct (lp_expose_last L HR) as (i' & E1 & HD). rewrite E1. cbn [bind].
        right; right. exists (ps_with_inner i' s). splits; auto. destruct l; reflexivity.
      + remember (y :: ys0) as xs eqn:Exs.
        destruct (lp_expose L HR) as (i' & zs & rest & E1 & Hne & Hxs & HR'); [congruence|].
        rewrite E1. cbn [bind]. cbn [ps_with_inner ps_buffer ps_inner].
        set (n' := Nat.min (length zs) n). rewrite slice_to_ok by (subst n'; lia). cbn [bind].
        destruct (fixed_bulk_enqueue_cloning clone (firstn n' zs) w HQ) as (b & w' & r & E2 & Hr). rewrite E2. cbn [bind].
        assert (Hz : length zs <> 0) by (destruct zs; [congruence|cbn; lia]).
        assert (Hpre : forall m, m <= n' -> firstn m (firstn n' zs) = firstn m xs).
        { intros m Hm. rewrite firstn_firstn, Nat.min_l by lia. rewrite Hxs, firstn_app. replace (m - length zs) with 0 by lia. cbn. now rewrite app_nil_r. }
        destruct r as [m|].
        * destruct Hr as (Hm1 & Hm2 & Hm3 & ys & Hcl & HQ'). rewrite firstn_length in Hm1.
          assert (Hm : 1 <= m).
          { destruct (Nat.eq_dec m 0) as [E0|E0]; [|lia]. apply Hm3 in E0. destruct E0 as [E0|E0]; [lia|].
            apply (f_equal (@length T)) in E0. rewrite firstn_length in E0. cbn in E0. lia. }
          destruct (lp_consider L m HR') as (i2 & E3 & HR2); [lia|lia|].
          unfold ps_with_buffer, ps_with_inner. cbn [ps_inner ps_buffer ps_last ps_operations ps_index]. rewrite E3. cbn [bind].
          rewrite Hpre in Hcl by lia. pose proof (clones_length Hcl) as Hly. rewrite firstn_length in Hly.
          assert (m <= length xs) by (rewrite Hxs, app_length; lia).
          left. eexists _, (q ++ ys), (skipn m xs), w'.
          erewrite pscr_advance_ok with (cap := cap) (ops := ops) (buf := q ++ ys).
          2: { unfold pscr_wf; cbn [ps_buffer ps_operations ps_index ps_inner]; splits; auto. }
          cbn [bind]. splits; [reflexivity| |cbn; auto| |cbn; auto|rewrite app_length; lia|left; rewrite app_length; lia].
          -- unfold cl_at, pscr_wf; cbn [ps_buffer ps_operations ps_index ps_inner ps_last]. rewrite Hlast. splits; auto; [apply Nat.mod_upper_bound; lia|eauto].
          -- exists (firstn m xs), ys. splits; [now rewrite firstn_skipn|now apply clones_carried|reflexivity].
        * destruct Hr as (m & ys & Hm & Hbr & HQ'). rewrite firstn_length in Hm.
          right; left. eexists _, w'. split; [reflexivity|]. split.
          -- unfold cl_at, pscr_wf, ps_with_buffer, ps_with_inner; cbn [ps_buffer ps_operations ps_index ps_inner ps_last]. rewrite Hlast. splits; eauto.
          -- exists w, m, ys. split; [apply reads_nothing|]. rewrite Hpre in Hbr by lia. exact Hbr.
    - destruct LS as [LS'|LS']; [|contradiction].
      destruct (LS' _ _ _ _ HR) as [(i' & E1 & HR')|(i' & e & E1 & -> & -> & HD)]; rewrite E1; cbn [bind].
      + left. eexists _, q, xs, w.
        erewrite pscr_advance_ok with (cap := cap) (ops := ops) (buf := q).
        2: { unfold pscr_wf, ps_with_inner; cbn [ps_buffer ps_operations ps_index ps_inner]; splits; auto. }
        cbn [bind]. splits; [reflexivity| |cbn; auto|apply reads_nothing|cbn; auto|lia|right; auto].
        unfold cl_at, pscr_wf, ps_with_inner; cbn [ps_buffer ps_operations ps_index ps_inner ps_last]. rewrite Hlast. splits; auto; [apply Nat.mod_upper_bound; lia|eauto].
      + right; right. exists (ps_with_inner i' s). splits; auto.
  Qed.

  Lemma cl_fill_loop : forall j o, nth_error ops j = Some o -> o <> ScSlurp -> forall fuel s q xs l w, cl_at s q xs l ->
    (cap - length q) * length ops + cyc_dist (length ops) (ps_index s) j < fuel ->
    exists s' q' xs' w' r, pscr_fill_loop_cloning clone dbg produce fuel P s w = Ret (s', w', r) /\ cl_at s' q' xs' l /\
      match r with
      | Done tt => reads clone q xs w q' xs' w' /\ (ps_last s' = None -> length q' = cap)
      | Unwound => stumbles clone q xs w q' xs' w'
      end.
  Proof.
    intros j o Hj Ho. assert (Hjl : j < length ops) by (apply nth_error_Some; congruence).
    induction fuel as [|fuel IH]; intros s q xs l w HA Hf; [exfalso; exact (Nat.nlt_0_r _ Hf)|].
    cbn [pscr_fill_loop_cloning]. destruct (ps_last s) as [l'|] eqn:El.
    { exists s, q, xs, w, (Done tt). splits; auto; [apply reads_nothing|congruence]. }
    pose proof HA as [Wf _]. rewrite (pscr_wf_len Wf). destruct (pscr_wf_cap Wf) as [-> Hc].
    destruct (Nat.ltb_spec (length q) cap) as [Hlt|Hge].
    2: { exists s, q, xs, w, (Done tt). splits; auto; [apply reads_nothing|lia]. }
    destruct (cl_perform w HA El Hlt)
      as [(s' & q' & xs' & w' & E1 & HA' & El' & Hr & Hi & Hle & Hprog)|[(s' & w' & E1 & HA' & Hst)|(s' & -> & W' & El' & HD & E1)]]; rewrite E1; cbn [bind].
    - destruct (IH s' q' xs' l w' HA') as (s2 & q2 & xs2 & w2 & r2 & E2 & HA2 & H2).
      + pose proof HA' as [W' _]. destruct (pscr_wf_cap W') as [_ Hc']. rewrite Hi. pose proof (@cyc_dist_lt (length ops) ((ps_index s + 1) mod length ops) j).
        destruct (Nat.eq_dec (length q') (length q)) as [Eq|Ne].
        * destruct Hprog as [H1|H1]; [lia|]. rewrite Eq. enough (cyc_dist (length ops) ((ps_index s + 1) mod length ops) j < cyc_dist (length ops) (ps_index s) j) by lia.
          apply cyc_dist_step; [apply Wf|lia|]. intros Ej. rewrite Ej in H1. congruence.
        * assert ((cap - length q') * length ops + length ops <= (cap - length q) * length ops); [|lia].
          replace (cap - length q) with ((cap - length q') + (length q' - length q)) by lia. rewrite Nat.mul_add_distr_r. apply Nat.add_le_mono_l.
          rewrite <- (Nat.mul_1_l (length ops)) at 1. apply Nat.mul_le_mono_r. lia.
      + exists s2, q2, xs2, w2, r2. splits; auto. destruct r2 as [[]|].
        * destruct H2 as [H2 H3]. split; [eapply reads_more; eauto|exact H3].
        * eapply reads_stumbles; eauto.
    - exists s', q, xs, w', Unwound. splits; auto.
    - destruct fuel as [|fuel'].
      { assert (length ops <= (cap - length q) * length ops); [|lia]. rewrite <- (Nat.mul_1_l (length ops)) at 1. apply Nat.mul_le_mono_r. lia. }
      assert (Hgo : forall l', l' = l -> exists s2 q' xs' w' r, pscr_fill_loop_cloning clone dbg produce (Datatypes.S fuel') P (ps_with_last (Some l') s') w = Ret (s2, w', r) /\ cl_at s2 q' xs' l /\
        match r with Done tt => reads clone q [] w q' xs' w' /\ (ps_last s2 = None -> length q' = cap) | Unwound => stumbles clone q [] w q' xs' w' end).
      { intros l' ->. cbn [pscr_fill_loop_cloning ps_with_last ps_last]. exists (ps_with_last (Some l) s'), q, [], w, (Done tt).
        splits; auto; [unfold cl_at, pscr_wf; cbn; splits; auto; apply W'|apply reads_nothing|discriminate]. }
      destruct l; apply Hgo; reflexivity.
  Qed.

  Variable fuel : nat.
  Hypothesis Hf : Datatypes.S cap * length ops <= fuel.

  Lemma cl_fill_queue : forall s q xs l w, cl_at s q xs l ->
    (exists s', pscr_fill_queue_cloning clone dbg produce fuel P s w = Ret (s', w, Done (Some l)) /\ q = [] /\ xs = [] /\ D (ps_inner s')) \/
    (exists s' q' xs' w', pscr_fill_queue_cloning clone dbg produce fuel P s w = Ret (s', w', Done None) /\ cl_at s' q' xs' l /\ reads clone q xs w q' xs' w' /\ q' <> []) \/
    (exists s' q' xs' w', pscr_fill_queue_cloning clone dbg produce fuel P s w = Ret (s', w', Unwound) /\ cl_at s' q' xs' l /\ stumbles clone q xs w q' xs' w').
  Proof.
    intros s q xs l w HA. destruct OK as [_ (j & o & Hj & Ho)]. assert (Hjl : j < length ops) by (apply nth_error_Some; congruence).
    destruct (@cl_fill_loop j o Hj Ho fuel s q xs l w HA) as (s' & q' & xs' & w' & r & E1 & HA' & Hr).
    { pose proof (@cyc_dist_lt (length ops) (ps_index s) j). enough ((cap - length q) * length ops <= cap * length ops) by (cbn in Hf; lia).
      apply Nat.mul_le_mono_r. lia. }
    unfold pscr_fill_queue_cloning. rewrite E1. cbn [bind]. destruct r as [[]|].
    - destruct Hr as [Hr Hc]. pose proof HA' as [W' Hl']. rewrite (pscr_wf_len W').
      destruct (Nat.eqb_spec (length q') 0) as [E0|E0].
      + apply length_zero_iff_nil in E0. subst q'. destruct Hr as (p & p' & -> & Hcar & Hq). symmetry in Hq. apply app_eq_nil in Hq as [-> ->].
        apply carried_length in Hcar as Hlen. destruct p; [|discriminate]. inversion Hcar; subst. left.
        destruct (ps_last s') as [l'|].
        * destruct Hl' as (-> & -> & HD). exists (ps_with_last None s'). auto.
        * specialize (Hc eq_refl). destruct HA as [((H0 & _) & _) _]. cbn in Hc. lia.
      + right; left. exists s', q', xs', w'. splits; auto. intros ->. now apply E0.
    - right; right. eauto 8.
  Qed.

  Lemma says_end_of : forall (X : Type) (l : res F E), says_end l (match l with Ok fin => @Ok (X + F) E (inr fin) | Err e => Err e end).
  Proof. intros X [f|e]; reflexivity. Qed.

  (** States as the specification sees them. *)
  Definition cl_rel (l : res F E) (s : pscr S T F E) (a : sabs T) : Prop :=
    match a with
    | SAt q xs k => cl_at s q xs l /\ k <= length q
    | SEnded => D (ps_inner s)
    end.

  Lemma cl_expose : forall s q xs l w, cl_at s q xs l ->
    exists s' w' r a', pscr_expose_cloning clone dbg produce fuel P s w = Ret (s', w', r) /\ s_answer clone l (SAt q xs 0) w SExpose (SASlice r) a' w' /\ cl_rel l s' a'.
  Proof.
    intros s q xs l w HA. unfold pscr_expose_cloning.
    destruct (cl_fill_queue w HA) as [(s' & E1 & -> & -> & HD)|[(s' & q' & xs' & w' & E1 & HA' & Hr & Hne)|(s' & q' & xs' & w' & E1 & HA' & Hst)]]; rewrite E1; cbn [bind].
    - destruct l as [f|e].
      + eexists _, _, _, SEnded. splits; [reflexivity| |exact HD]. cbn. right. repeat split.
      + eexists _, _, _, SEnded. splits; [reflexivity| |exact HD]. cbn. right. repeat split.
    - pose proof HA' as [(HQ & Ho & Hi) Hl]. destruct (lq_expose_items (fixed_lawful cap) HQ Hne) as (b & zs & rest & E2 & Hzs & Hb & HQ'). rewrite E2. cbn [bind expect].
      eexists _, w', _, (SAt (zs ++ rest) xs' (length zs)). splits; [reflexivity| |].
      + cbn. left. exists zs, rest, xs'. rewrite <- Hb. auto.
      + cbn. rewrite <- Hb. split; [|rewrite Hb, app_length; lia]. split; [unfold pscr_wf; cbn; auto|exact Hl].
    - eexists _, w', _, (SAt q' xs' 0). splits; [reflexivity| |].
      + cbn. eauto 6.
      + cbn. split; [exact HA'|lia].
  Qed.

  Lemma cl_step : forall o l s a w, cl_rel l s a -> s_permitted a o ->
    exists s' w' r a', s_do clone dbg fuel produce P o s w = Ret (s', w', r) /\ s_answer clone l a w o r a' w' /\ cl_rel l s' a'.
  Proof.
    intros o l s [q xs k|] w HR Hp; [|destruct o; contradiction]. destruct HR as [HA Hk]. destruct o as [| |n|buf]; cbn [s_do].
    - unfold pscr_produce_cloning.
      destruct (cl_fill_queue w HA) as [(s' & E1 & -> & -> & HD)|[(s' & q' & xs' & w' & E1 & HA' & Hr & Hne)|(s' & q' & xs' & w' & E1 & HA' & Hst)]]; rewrite E1; cbn [bind].
      + destruct l as [f|e]; cbn [bind]; eexists _, _, _, SEnded; (splits; [reflexivity|cbn; right; repeat split|exact HD]).
      + pose proof HA' as [(HQ & Ho & Hi) Hl]. destruct q' as [|x q']; [congruence|]. rewrite fixed_deq_clones.
        destruct (lq_dequeue (fixed_lawful cap) HQ) as (b & E2 & HQ'). rewrite E2. cbn [bind].
        assert (HA2 : cl_at (ps_with_buffer b s') q' xs' l) by (split; [unfold pscr_wf; cbn; auto|exact Hl]).
        destruct (clone x w') as [w2 [y|]] eqn:Ec; cbn [bind expect].
        * eexists _, w2, _, (SAt q' xs' (k - 1)). splits; [reflexivity| |].
          -- cbn. left. exists x, y, q', xs', w'. auto.
          -- cbn. split; [exact HA2|]. destruct Hr as (p & p' & _ & _ & Hq). apply (f_equal (@length T)) in Hq. rewrite app_length in Hq. cbn in Hq. lia.
        * eexists _, w2, _, (SAt q' xs' 0). splits; [reflexivity| |].
          -- cbn. right. eauto 8.
          -- cbn. split; [exact HA2|lia].
      + eexists _, w', _, (SAt q' xs' 0). splits; [reflexivity|cbn; left; eauto|cbn; split; [exact HA'|lia]].
    - destruct (cl_expose w HA) as (s' & w' & r & a' & E1 & H1 & H2). rewrite E1. cbn [bind]. exists s', w', (SASlice r), a'. splits; auto.
    - destruct HA as [(HQ & Ho & Hi) Hl]. cbn in Hp. unfold pscr_consider.
      destruct (lq_consider_dequeued (fixed_lawful cap) n HQ) as (b & E1 & HQ'); [lia|]. rewrite E1. cbn [bind].
      eexists _, w, _, (SAt (skipn n q) xs (k - n)). splits; [reflexivity|cbn; auto|]. cbn. split; [|rewrite skipn_length; lia].
      split; [unfold pscr_wf; cbn; auto|exact Hl].
    - cbn in Hp. unfold pscr_bulk_produce_cloning. destruct (cl_expose w HA) as (s' & w' & r & a' & E1 & H1 & H2). rewrite E1. cbn [bind].
      destruct r as [r|].
      + cbn in H1. destruct H1 as [(zs & q' & xs' & -> & Hzs & Hr & ->)|(He & -> & -> & -> & ->)].
        * destruct H2 as [HA2 _]. set (m := Nat.min (length zs) (length buf)).
          assert (1 <= m). { destruct zs; [congruence|]. destruct buf; [congruence|]. unfold m. cbn. lia. }
          assert (Hpre : firstn m zs = firstn m (zs ++ q')). { rewrite firstn_app. replace (m - length zs) with 0 by lia. cbn. now rewrite app_nil_r. }
          rewrite Hpre. destruct (clone_each clone (firstn m (zs ++ q')) w') as [w2 [ys []]] eqn:Ec.
          -- apply clone_each_true in Ec. pose proof (clones_length Ec) as Hl. rewrite firstn_length, app_length in Hl.
             destruct HA2 as [(HQ & Ho & Hi) Hl2]. unfold pscr_consider.
             destruct (lq_consider_dequeued (fixed_lawful cap) m HQ) as (b & E2 & HQ'); [rewrite app_length; lia|]. rewrite E2. cbn [bind].
             eexists _, w2, _, (SAt (skipn m (zs ++ q')) xs' 0). splits; [reflexivity| |].
             ++ cbn. left. exists m, ys, (zs ++ q'), xs', w'. splits; auto; try lia; [rewrite app_length; lia|]. unfold overlay. do 2 f_equal. lia.
             ++ cbn. split; [|lia]. split; [unfold pscr_wf; cbn; auto|exact Hl2].
          -- apply clone_each_false in Ec. eexists _, w2, _, (SAt (zs ++ q') xs' 0). splits; [reflexivity| |].
             ++ cbn. right. exists m, ys, (zs ++ q'), xs', w'. splits; auto; lia.
             ++ cbn. split; [exact HA2|lia].
        * unfold says_end in He. subst r. destruct l as [f|e]; cbn [bind]; eexists _, w, _, SEnded; (splits; [reflexivity|cbn; right; repeat split|exact H2]).
      + cbn in H1. destruct H1 as (q' & xs' & Hst & ->). cbn [bind]. eexists _, w', _, (SAt q' xs' 0). splits; [reflexivity| |exact H2].
        cbn. left. eauto 6.
  Qed.

  Lemma cl_conforms : forall calls l s a w, cl_rel l s a -> s_conforms clone l dbg fuel produce P calls s w a.
  Proof.
    induction calls as [|o calls IH]; intros l s a w HR; [constructor|].
    destruct (s_permitted_dec a o) as [Hp|Hp]; [|now apply s_conforms_broken].
    destruct (@cl_step o l s a w HR Hp) as (s' & w' & r & a' & E1 & H1 & H2). eapply s_conforms_step; eauto.
  Qed.
End Producer.

(** ** What becomes of each item *)
Section Fates.
  Context {W T F E : Type} (clone : T -> W -> W * option T) (l : res F E).

  (** The items of the original sequence that are yet to be handed over. *)
  Definition owed (a : sabs T) (os : list T) : Prop :=
    match a with
    | SAt q xs k => k <= length q /\ exists qo, os = qo ++ xs /\ Forall2 (descends clone) qo q
    | SEnded => os = []
    end.

  Definition on_display (a : sabs T) : list T := match a with SAt q _ k => firstn k q | SEnded => [] end.

  Lemma reads_owed : forall q xs w q' xs' w' qo, reads clone q xs w q' xs' w' -> Forall2 (descends clone) qo q ->
    exists qo', qo ++ xs = qo' ++ xs' /\ Forall2 (descends clone) qo' q'.
  Proof.
    intros q xs w q' xs' w' qo (p & p' & -> & H1 & ->) H2. exists (qo ++ p). rewrite app_assoc. split; [reflexivity|].
    apply Forall2_app; [exact H2|]. eapply carried_descends, H1.
  Qed.

  Lemma came_app : forall fs gs : list (fate T), came (fs ++ gs) = came fs ++ came gs.
  Proof. intros. apply flat_map_app. Qed.

  Lemma gone_app : forall fs gs : list (fate T), gone (fs ++ gs) = gone fs + gone gs.
  Proof. intros. unfold gone. now rewrite filter_app, app_length. Qed.

  Lemma all_came : forall os ys, Forall2 (fun x y => exists z, descends clone x z /\ descends clone z y) os ys ->
    Forall2 (meets clone) os (map Came ys) /\ came (map Came ys) = ys /\ gone (map Came ys) = 0.
  Proof. induction 1 as [|x y os ys H H1 (H2 & H3 & H4)]; cbn; [auto|]. splits; [constructor; auto|f_equal; exact H3|exact H4]. Qed.

  Lemma Forall2_compose : forall A (P Q : A -> A -> Prop) xs ys, Forall2 P xs ys -> forall zs, Forall2 Q ys zs -> Forall2 (fun x z => exists y, P x y /\ Q y z) xs zs.
  Proof. induction 1; intros zs H2; inversion H2; subst; constructor; eauto. Qed.

  Lemma Forall2_firstn : forall A B (P : A -> B -> Prop) xs ys, Forall2 P xs ys -> forall n, Forall2 P (firstn n xs) (firstn n ys).
  Proof. induction 1; intros [|n]; cbn; constructor; auto. Qed.

  Lemma Forall2_skipn : forall A B (P : A -> B -> Prop) xs ys, Forall2 P xs ys -> forall n, Forall2 P (skipn n xs) (skipn n ys).
  Proof. induction 1; intros [|n]; cbn; auto. Qed.

  Lemma Forall2_self : forall xs : list T, Forall2 (descends clone) xs xs.
  Proof. induction xs; constructor; auto. now left. Qed.

  Lemma fates_step : forall a w o (r : sans T F E) a' w' os, owed a os -> s_permitted a o -> s_answer clone l a w o r a' w' ->
    exists done rest fs, os = done ++ rest /\ Forall2 (meets clone) done fs /\ owed a' rest /\
      (forall h, s_emitted (on_display a) ((o, r) :: h) = came fs ++ s_emitted (on_display a') h) /\
      gone fs <= s_torn [(o, r)].
  Proof.
    intros [q xs k|] w o r a' w' os Ho Hp Ha; [|contradiction]. destruct Ho as (Hk & qo & -> & Hq).
    assert (Keep : forall q' xs' w1, reads clone q xs w q' xs' w1 -> exists qo', qo ++ xs = [] ++ qo' ++ xs' /\ owed (SAt q' xs' 0) (qo' ++ xs')).
    { intros q' xs' w1 Hr. destruct (reads_owed Hr Hq) as (qo' & E1 & H1). exists qo'. split; [exact E1|]. cbn. split; [lia|eauto]. }
    assert (Lost : forall q' xs' w1, stumbles clone q xs w q' xs' w1 -> exists qo', qo ++ xs = [] ++ qo' ++ xs' /\ owed (SAt q' xs' 0) (qo' ++ xs')).
    { intros q' xs' w1 (w2 & n & ys & Hr & _). eapply Keep, Hr. }
    assert (Over : q = [] -> xs = [] -> qo ++ xs = []).
    { intros -> ->. inversion Hq; subst. reflexivity. }
    destruct o as [| |n|buf], r as [r|r|r|buf' r]; cbn [s_answer] in Ha; try contradiction.
    - destruct r as [r|].
      + destruct Ha as [(x & y & q' & xs' & w1 & -> & Hr & Hc & ->)|(He & Eq & Ex & -> & ->)].
        * destruct (reads_owed Hr Hq) as (qo' & E1 & H1). inversion H1 as [|x0 ? qo1 ? Hx Hq1]; subst.
          exists [x0], (qo1 ++ xs'), [Came y]. splits; [exact E1|constructor; [|constructor]| | |cbn; lia].
          -- cbn. exists x. split; [exact Hx|right; eauto].
          -- cbn. split; [|eauto]. destruct Hr as (p & p' & _ & _ & Hqq). apply (f_equal (@length T)) in Hqq. rewrite app_length in Hqq. cbn in Hqq. lia.
          -- intros h. cbn [s_emitted on_display came flat_map app]. f_equal. f_equal. destruct Hr as (p & p' & _ & _ & Hqq).
             destruct q as [|x1 q1]; [cbn in Hk; replace k with 0 by lia; reflexivity|]. cbn in Hqq. injection Hqq as -> ->.
             destruct k as [|k]; [reflexivity|]. cbn [firstn tl]. cbn in Hk. replace (Datatypes.S k - 1) with k by lia.
             rewrite firstn_app. replace (k - length q1) with 0 by lia. cbn. now rewrite app_nil_r.
        * exists [], [], []. splits; [rewrite Over by assumption; reflexivity|constructor|reflexivity| |cbn; lia].
          intros h. unfold says_end in He. subst r. destruct l; reflexivity.
      + destruct Ha as [(q' & xs' & Hst & ->)|(x & q' & xs' & w1 & Hr & Hc & ->)].
        * destruct (Lost _ _ _ Hst) as (qo' & E1 & H1). exists [], (qo' ++ xs'), []. splits; auto; cbn; try lia; constructor.
        * destruct (reads_owed Hr Hq) as (qo' & E1 & H1). inversion H1 as [|x0 ? qo1 ? Hx Hq1]; subst.
          exists [x0], (qo1 ++ xs'), [Gone]. splits; [exact E1|repeat constructor|cbn; split; [lia|eauto]|reflexivity|cbn; lia].
    - destruct r as [r|].
      + destruct Ha as [(zs & q' & xs' & -> & Hz & Hr & ->)|(He & Eq & Ex & -> & ->)].
        * destruct (reads_owed Hr Hq) as (qo' & E1 & H1). exists [], (qo' ++ xs'), []. splits; [exact E1|constructor| | |cbn; lia].
          -- cbn. split; [rewrite app_length; lia|eauto].
          -- intros h. cbn [s_emitted on_display came flat_map app]. f_equal. rewrite firstn_app, Nat.sub_diag, firstn_all. cbn. now rewrite app_nil_r.
        * exists [], [], []. splits; [rewrite Over by assumption; reflexivity|constructor|reflexivity| |cbn; lia].
          intros h. unfold says_end in He. subst r. destruct l; reflexivity.
      + destruct Ha as (q' & xs' & Hst & ->). destruct (Lost _ _ _ Hst) as (qo' & E1 & H1). exists [], (qo' ++ xs'), []. splits; auto; cbn; try lia; constructor.
    - destruct Ha as (-> & -> & ->). cbn in Hp.
      destruct (@all_came (firstn n qo) (firstn n q)) as (H1 & H2 & H3).
      { eapply Forall2_compose; [apply Forall2_firstn, Hq|apply Forall2_self]. }
      exists (firstn n qo), (skipn n qo ++ xs), (map Came (firstn n q)). splits; auto.
      + rewrite app_assoc, firstn_skipn. reflexivity.
      + cbn. split; [rewrite skipn_length; lia|]. exists (skipn n qo). split; [reflexivity|]. now apply Forall2_skipn.
      + intros h. rewrite H2. cbn [s_emitted on_display]. rewrite skipn_firstn_comm, firstn_firstn, Nat.min_l by lia. reflexivity.
      + rewrite H3. lia.
    - destruct r as [r|].
      + destruct Ha as [(n & ys & q' & xs' & w1 & -> & Hn & Hn' & Hr & Hc & -> & ->)|(He & Eq & Ex & -> & -> & ->)].
        * destruct (reads_owed Hr Hq) as (qo' & E1 & H1).
          destruct (@all_came (firstn n qo') ys) as (H2 & H3 & H4).
          { eapply Forall2_compose; [apply Forall2_firstn, H1|]. eapply clones_descends, Hc. }
          exists (firstn n qo'), (skipn n qo' ++ xs'), (map Came ys). splits; auto.
          -- rewrite E1, app_assoc, firstn_skipn. reflexivity.
          -- cbn. split; [lia|]. exists (skipn n qo'). split; [reflexivity|]. now apply Forall2_skipn.
          -- intros h. rewrite H3. cbn [s_emitted on_display firstn]. f_equal.
             pose proof (clones_length Hc) as Hl. rewrite firstn_length, Nat.min_l in Hl by lia.
             rewrite firstn_app, Hl, Nat.sub_diag. cbn. rewrite app_nil_r. apply firstn_all2. lia.
          -- rewrite H4. lia.
        * exists [], [], []. splits; [rewrite Over by assumption; reflexivity|constructor|reflexivity| |cbn; lia].
          intros h. unfold says_end in He. subst r. destruct l; reflexivity.
      + destruct Ha as [(q' & xs' & Hst & -> & ->)|(n & ys & q' & xs' & w1 & Hn & Hr & Hb & -> & ->)].
        * destruct (Lost _ _ _ Hst) as (qo' & E1 & H1). exists [], (qo' ++ xs'), []. splits; auto; cbn; try lia; constructor.
        * destruct (Keep _ _ _ Hr) as (qo' & E1 & H1). exists [], (qo' ++ xs'), []. splits; auto; cbn; try lia; constructor.
  Qed.

  Lemma s_torn_cons : forall e (h : list (sop T * sans T F E)), s_torn (e :: h) = s_torn [e] + s_torn h.
  Proof. intros e h. change (e :: h) with ([e] ++ h). unfold s_torn. rewrite filter_app, app_length. reflexivity. Qed.

  Context {S : Type} (dbg : bool) (fuel : nat) (produce : S -> W -> outcome (S * W * caught (res (T + F) E))) (P : bulk_producer S T F E).

  Lemma fates : forall s w a h s' w' a', s_history clone l dbg fuel produce P s w a h s' w' a' -> forall os, owed a os ->
    exists done rest fs, os = done ++ rest /\ Forall2 (meets clone) done fs /\ owed a' rest /\ came fs = s_emitted (on_display a) h /\ gone fs <= s_torn h.
  Proof.
    induction 1 as [s w a|s w a o s1 w1 r a1 h s2 w2 a2 Hp Hdo Ha Hh IH]; intros os Ho.
    - exists [], os, []. splits; auto.
    - destruct (@fates_step a w o r a1 w1 os Ho Hp Ha) as (d1 & r1 & f1 & -> & M1 & O1 & E1 & G1). destruct (IH _ O1) as (d2 & r2 & f2 & -> & M2 & O2 & E2 & G2).
      exists (d1 ++ d2), r2, (f1 ++ f2). splits; auto.
      + now rewrite app_assoc.
      + now apply Forall2_app.
      + rewrite E1, came_app, E2. reflexivity.
      + rewrite gone_app, s_torn_cons. lia.
  Qed.
End Fates.

(** ** From the start *)
Section Start.
  Context {W S T F E : Type} (clone : T -> W -> W * option T) (dbg : bool) (produce : S -> W -> outcome (S * W * caught (res (T + F) E))) (P : bulk_producer S T F E)
    (R : S -> list T -> res F E -> nat -> Prop) (D : S -> Prop).
  Hypothesis L : lawful_producer_core P R D.
  Hypothesis Gv : gives clone produce R D.

  Section Within.
    Variables (cap : nat) (ops : list pscr_op) (fuel : nat).
    Hypothesis LS : lawful_slurp P R D \/ ~ In ScSlurp ops.
    Hypothesis OK : pscr_ops_ok ops.
    Hypothesis Hf : Datatypes.S cap * length ops <= fuel.

    Lemma cl_run : forall calls l s a w, cl_rel R D cap ops l s a ->
      exists h s' w' a', s_history clone l dbg fuel produce P s w a h s' w' a' /\ cl_rel R D cap ops l s' a' /\
        (calls = map fst h \/ exists o calls', calls = map fst h ++ o :: calls' /\ ~ s_permitted a' o).
    Proof.
      induction calls as [|o calls IH]; intros l s a w HR.
      - exists [], s, w, a. splits; auto. constructor.
      - destruct (s_permitted_dec a o) as [Hp|Hp].
        + destruct (@cl_step W S T F E clone dbg produce P R D L Gv cap ops LS OK fuel Hf o l s a w HR Hp) as (s1 & w1 & r & a1 & E1 & H1 & H2).
          destruct (IH l s1 a1 w1 H2) as (h & s' & w' & a' & Hh & HR' & Hc). exists ((o, r) :: h), s', w', a'.
          splits; auto; [econstructor; eauto|]. cbn. destruct Hc as [->|(o' & calls' & -> & Hn)]; [now left|right; eauto].
        + exists [], s, w, a. splits; auto; [constructor|]. right. exists o, calls. auto.
    Qed.
  End Within.

  Lemma cl_new : forall x0 s pat cap xs l k, 0 < cap -> R s xs l k -> Forall pscr_op_ok pat ->
    cl_rel R D cap (pscr_operations pat) l (pscr_new_with_capacity x0 s pat cap) (SAt [] xs 0).
  Proof.
    intros x0 s pat cap xs l k Hc HR Hp. destruct (@pscr_new_rel _ _ _ _ R D x0 s pat cap xs l k Hc HR Hp) as (buf & Wf & _ & _).
    cbn. split; [|lia]. split; [|cbn; eauto]. unfold pscr_wf, pscr_new_with_capacity, fixed_new in *. cbn in *. destruct Wf as (_ & H1 & H2).
    splits; auto. now apply fixed_new_R.
  Qed.

  Variables (x0 : T) (s : S) (xs : list T) (l : res F E) (k : nat) (pat : list pscr_op) (cap fuel : nat).
  Hypothesis HR : R s xs l k.
  Hypothesis Hc : 1 <= cap.
  Hypothesis Hn : forall n, In (ScConsiderProduced n) pat -> 1 <= n.
  Hypothesis LS : lawful_slurp P R D \/ ~ In ScSlurp pat.
  Hypothesis Hf : Datatypes.S cap * Datatypes.S (length pat) <= fuel.

  Lemma cl_pat : Forall pscr_op_ok pat.
  Proof. apply Forall_forall; intros [| |] Hi; cbn; auto. Qed.

  Lemma cl_ls : lawful_slurp P R D \/ ~ In ScSlurp (pscr_operations pat).
  Proof. destruct LS as [H|H]; [left; exact H|right]. intros H1. apply H. now apply pscr_operations_slurp. Qed.

  Lemma cl_fuel : Datatypes.S cap * length (pscr_operations pat) <= fuel.
  Proof. pose proof (pscr_operations_length pat) as H. clear - H Hf. nia. Qed.

  Lemma cl_scrambler_conforms : forall calls w, s_conforms clone l dbg fuel produce P calls (pscr_new_with_capacity x0 s pat cap) w (SAt [] xs 0).
  Proof.
    intros calls w. eapply cl_conforms with (cap := cap) (ops := pscr_operations pat).
    - exact L.
    - exact Gv.
    - exact cl_ls.
    - apply pscr_operations_ok, cl_pat.
    - exact cl_fuel.
    - eapply cl_new; eauto using cl_pat.
  Qed.

  Lemma cl_scrambler_accounts : forall calls w, exists h s' w' a',
    s_history clone l dbg fuel produce P (pscr_new_with_capacity x0 s pat cap) w (SAt [] xs 0) h s' w' a' /\
    (calls = map fst h \/ exists o calls', calls = map fst h ++ o :: calls' /\ ~ s_permitted a' o) /\
    exists handled fs, Forall2 (meets clone) handled fs /\ came fs = s_emitted [] h /\ gone fs <= s_torn h /\
      match a' with
      | SAt q later _ =>
          length q <= cap /\ (exists ahead, xs = handled ++ ahead ++ later /\ Forall2 (descends clone) ahead q) /\
          ((exists k', R (ps_inner s') later l k') \/ (later = [] /\ D (ps_inner s')))
      | SEnded => xs = handled /\ D (ps_inner s')
      end.
  Proof.
    intros calls w.
    destruct (@cl_run cap (pscr_operations pat) fuel cl_ls (pscr_operations_ok cl_pat) cl_fuel calls l (pscr_new_with_capacity x0 s pat cap) (SAt [] xs 0) w)
      as (h & s' & w' & a' & Hh & HR' & Hcalls).
    { eapply cl_new; eauto using cl_pat. }
    exists h, s', w', a'. splits; auto.
    assert (O0 : owed clone (SAt [] xs 0) xs).
    { cbn. split; [lia|]. exists []. split; [reflexivity|constructor]. }
    destruct (fates Hh xs O0) as (d & rest & fs & E1 & M & O & C & G).
    exists d, fs. splits; auto. destruct a' as [q later k'|]; cbn in O, HR'.
    - destruct HR' as [[Wf Hl] Hk]. destruct (pscr_wf_cap Wf) as [_ Hcap]. destruct O as (_ & qo & -> & Hq). splits; [exact Hcap|eauto|].
      destruct (ps_last s'); [right|left; exact Hl]. destruct Hl as (_ & H1 & H2). auto.
    - subst rest. rewrite app_nil_r in E1. auto.
  Qed.
End Start.

(** ** Tame implementations of [Clone] *)
Section Tame.
  Context {W S T F E : Type} (clone : T -> W -> W * option T) (l : res F E) (dbg : bool) (fuel : nat) (produce : S -> W -> outcome (S * W * caught (res (T + F) E))) (P : bulk_producer S T F E).

  Lemma fates_emitted : forall s w xs h s' w' a', s_history clone l dbg fuel produce P s w (SAt [] xs 0) h s' w' a' ->
    exists handled rest fs, xs = handled ++ rest /\ Forall2 (meets clone) handled fs /\ owed clone a' rest /\ came fs = s_emitted [] h /\ gone fs <= s_torn h.
  Proof. intros s w xs h s' w' a' Hh. apply (fates Hh). cbn. split; [lia|]. exists []. split; [reflexivity|constructor]. Qed.

  Lemma total_not_breaks : (forall x w, snd (clone x w) <> None) -> forall xs w ys w', ~ breaks clone xs w ys w'.
  Proof. intros Ht xs w ys w' H. induction H as [x xs w w' H|]; [|assumption]. apply (Ht x w). now rewrite H. Qed.

  Lemma total_not_torn : (forall x w, snd (clone x w) <> None) ->
    forall s w a h s' w' a', s_history clone l dbg fuel produce P s w a h s' w' a' -> s_torn h = 0.
  Proof.
    intros Ht s w a h s' w' a' H. induction H as [|s w a o s1 w1 r a1 h s2 w2 a2 Hp Hdo Ha Hh IH]; [reflexivity|]. rewrite s_torn_cons, IH.
    destruct a as [q xs k|]; [|contradiction].
    destruct o as [| |n|buf], r as [[r|]|[r|]|r|buf' [r|]]; cbn [s_answer] in Ha; try contradiction; try reflexivity.
    exfalso. destruct Ha as [(q' & xs' & (w3 & n & ys & _ & Hb) & _)|(x & q' & xs' & w3 & _ & Hc & _)].
    - exact (total_not_breaks Ht Hb).
    - apply (Ht x w3). now rewrite Hc.
  Qed.

  Lemma none_gone : forall os fs, Forall2 (meets clone) os fs -> gone fs = 0 ->
    Forall2 (fun x y => exists z, descends clone x z /\ descends clone z y) os (came fs).
  Proof.
    intros os fs H. induction H as [|x f os fs H H1 IH]; intros Hg; [constructor|]. destruct f as [y|]; [|discriminate].
    cbn. constructor; auto.
  Qed.

  Lemma total_clone : (forall x w, snd (clone x w) <> None) ->
    forall s w xs h s' w' a', s_history clone l dbg fuel produce P s w (SAt [] xs 0) h s' w' a' ->
    exists handled rest, xs = handled ++ rest /\ Forall2 (fun x y => exists z, descends clone x z /\ descends clone z y) handled (s_emitted [] h) /\
      (a' = SEnded -> rest = []).
  Proof.
    intros Ht s w xs h s' w' a' Hh. destruct (fates_emitted Hh) as (d & rest & fs & E1 & M & O & C & G).
    rewrite (total_not_torn Ht Hh) in G. exists d, rest. splits; auto.
    - rewrite <- C. apply none_gone; [exact M|lia].
    - intros ->. exact O.
  Qed.

  Lemma faithful_clone : (forall x w w' y, clone x w = (w', Some y) -> y = x) ->
    forall s w xs h s' w' a', s_history clone l dbg fuel produce P s w (SAt [] xs 0) h s' w' a' ->
    exists handled rest n, xs = handled ++ rest /\ thinned n handled (s_emitted [] h) /\ n <= s_torn h /\ (a' = SEnded -> rest = []).
  Proof.
    intros Hy s w xs h s' w' a' Hh. destruct (fates_emitted Hh) as (d & rest & fs & E1 & M & O & C & G).
    assert (Hd : forall x y, descends clone x y -> y = x) by (intros x y [->|(v & v' & H)]; eauto).
    exists d, rest, (gone fs). splits; auto.
    - rewrite <- C. clear - M Hd. induction M as [|x f d fs H M IH]; [constructor|]. destruct f as [y|]; cbn.
      + cbn in H. destruct H as (z & H1 & H2). apply Hd in H1. apply Hd in H2. subst. constructor. exact IH.
      + constructor. exact IH.
    - intros ->. exact O.
  Qed.
End Tame.

(** ** With the identity for [clone], the code is that of the plain model. *)
Section Plain.
  Context {S T F E : Type} (dbg : bool) (P : bulk_producer S T F E).

  Lemma q_bulk_enqueue_plain : forall (b : fixed T) buf,
    q_bulk_enqueue_cloning plain_clone (fixed_queue T) buf b tt = let* (b', n) := q_bulk_enqueue (fixed_queue T) buf b in Ret (b', tt, Done n).
  Proof.
    intros b buf. unfold q_bulk_enqueue_cloning, q_bulk_enqueue.
    destruct (q_expose_slots (fixed_queue T) b) as [[q' [n|]]| |]; cbn [bind]; try reflexivity. rewrite plain_clone_each.
    now destruct (q_consider_enqueued (fixed_queue T) _ _).
  Qed.

  Lemma pscr_perform_plain : forall s : pscr S T F E,
    pscr_perform_operation_cloning plain_clone dbg (calm_produce P) P s tt = let* (s', r) := pscr_perform_operation dbg P s in Ret (s', tt, Done r).
  Proof.
    intros s. unfold pscr_perform_operation_cloning, pscr_perform_operation, debug_assert, calm_produce.
    destruct (dbg && negb (ps_len s <? fixed_capacity (ps_buffer s))); [reflexivity|].
    destruct (index (ps_index s) (ps_operations s)) as [[|n|]| |]; cbn [bind]; try reflexivity.
    - destruct (p_produce P (ps_inner s)) as [[i [[x|f]|e]]| |]; cbn [bind]; try reflexivity.
      destruct (q_enqueue (fixed_queue T) x _) as [[b y]| |]; cbn [bind]; try reflexivity.
      destruct (dbg && _); [reflexivity|]. now destruct (pscr_advance _).
    - destruct (p_expose P (ps_inner s)) as [[i [[x|f]|e]]| |]; cbn [bind]; try reflexivity.
      destruct (slice_to _ x); cbn [bind]; try reflexivity. rewrite q_bulk_enqueue_plain.
      destruct (q_bulk_enqueue (fixed_queue T) _ _) as [[b m]| |]; cbn [bind]; try reflexivity.
      destruct (p_consider P m _) as [[i2 [[]|e]]| |]; cbn [bind]; try reflexivity. now destruct (pscr_advance _).
    - destruct (p_slurp P (ps_inner s)) as [[i [[]|e]]| |]; cbn [bind]; try reflexivity. now destruct (pscr_advance _).
  Qed.

  Lemma pscr_fill_loop_plain : forall fuel (s : pscr S T F E),
    pscr_fill_loop_cloning plain_clone dbg (calm_produce P) fuel P s tt = let* s' := pscr_fill_loop dbg fuel P s in Ret (s', tt, Done tt).
  Proof.
    induction fuel as [|fuel IH]; intros s; [reflexivity|]. cbn [pscr_fill_loop_cloning pscr_fill_loop].
    destruct (ps_last s); [reflexivity|]. destruct (ps_len s <? fixed_capacity (ps_buffer s)); [|reflexivity].
    rewrite pscr_perform_plain. destruct (pscr_perform_operation dbg P s) as [[s1 [[f|]|e]]| |]; cbn [bind]; auto.
  Qed.

  Lemma pscr_fill_queue_plain : forall fuel (s : pscr S T F E),
    pscr_fill_queue_cloning plain_clone dbg (calm_produce P) fuel P s tt = let* (s', r) := pscr_fill_queue dbg fuel P s in Ret (s', tt, Done r).
  Proof.
    intros fuel s. unfold pscr_fill_queue_cloning, pscr_fill_queue. rewrite pscr_fill_loop_plain.
    destruct (pscr_fill_loop dbg fuel P s) as [s1| |]; cbn [bind]; try reflexivity. now destruct (ps_len s1 =? 0).
  Qed.

  Lemma pscr_plain : forall fuel (s : pscr S T F E),
    pscr_produce_cloning plain_clone dbg (calm_produce P) fuel P s tt = (let* (s', r) := p_produce (pscr_producer dbg fuel P) s in Ret (s', tt, Done r)) /\
    pscr_expose_cloning plain_clone dbg (calm_produce P) fuel P s tt = (let* (s', r) := p_expose (pscr_producer dbg fuel P) s in Ret (s', tt, Done r)) /\
    forall buf, pscr_bulk_produce_cloning plain_clone dbg (calm_produce P) fuel P buf s tt =
      let* (s', (buf', r)) := p_bulk_produce (pscr_producer dbg fuel P) buf s in Ret (s', tt, (buf', Done r)).
  Proof.
    intros fuel s.
    assert (Ex : pscr_expose_cloning plain_clone dbg (calm_produce P) fuel P s tt = let* (s', r) := pscr_expose dbg fuel P s in Ret (s', tt, Done r)).
    { unfold pscr_expose_cloning, pscr_expose. rewrite pscr_fill_queue_plain. destruct (pscr_fill_queue dbg fuel P s) as [[s1 [[f|e]|]]| |]; cbn [bind]; try reflexivity.
      destruct (q_expose_items (fixed_queue T) _) as [[b o]| |]; cbn [bind]; try reflexivity. now destruct (expect o). }
    splits; [|exact Ex|].
    - change (p_produce (pscr_producer dbg fuel P) s) with (pscr_produce dbg fuel P s). unfold pscr_produce_cloning, pscr_produce.
      rewrite pscr_fill_queue_plain. destruct (pscr_fill_queue dbg fuel P s) as [[s1 [[f|e]|]]| |]; cbn [bind]; try reflexivity.
      rewrite fixed_deq_clones. destruct (q_dequeue (fixed_queue T) _) as [[b [x|]]| |]; reflexivity.
    - intros buf. change (p_bulk_produce (pscr_producer dbg fuel P) buf s) with (default_bulk_produce (pscr_expose dbg fuel P) (@pscr_consider S T F E) buf s).
      unfold pscr_bulk_produce_cloning, default_bulk_produce. rewrite Ex. destruct (pscr_expose dbg fuel P s) as [[s1 [[slots|f]|e]]| |]; cbn [bind]; try reflexivity.
      rewrite plain_clone_each. unfold overlay. rewrite firstn_length.
      replace (Nat.min (Nat.min (length slots) (length buf)) (length slots)) with (Nat.min (length slots) (length buf)) by lia.
      destruct (pscr_consider _ s1) as [[s2 [[]|e]]| |]; reflexivity.
  Qed.
End Plain.

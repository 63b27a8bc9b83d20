(** Proofs about fair schedules. *)
From Coq Require Import Bool List Arith Lia.
From Coq.Init Require Import Byte.
From Verif Require Import Prelude Traits Contracts ContractFacts AdaptorSpec BasicModel BasicSpec BasicProofs CodecModel CodecSpec CodecProofs ListFacts SharedModel SharedSpec SharedProofs FairSpec.
Import ListNotations.
Set Implicit Arguments.

(** ** One component of a list becomes smaller *)
Section Lists.
  Context {A : Type} (R : A -> A -> Prop).

  Definition one_less (xs ys : list A) : Prop := exists i x y, nth_error ys i = Some y /\ R x y /\ xs = update i x ys.

  Lemma one_less_nil : Acc one_less [].
  Proof. constructor. intros ys (i & x & y & H & _). destruct i; discriminate. Qed.

  Lemma one_less_cons : forall x, Acc R x -> forall xs, Acc one_less xs -> Acc one_less (x :: xs).
  Proof.
    induction 1 as [x Hx IHx]. induction 1 as [xs Hxs IHxs]. constructor. intros ys (i & a & b & H & HR & ->).
    destruct i as [|i]; cbn in *.
    - injection H as ->. apply IHx; [exact HR|]. now constructor.
    - apply IHxs. exists i, a, b. auto.
  Qed.

  Lemma one_less_wf : (forall x, Acc R x) -> forall xs, Acc one_less xs.
  Proof. intros H. induction xs as [|x xs IH]; [apply one_less_nil|now apply one_less_cons]. Qed.
End Lists.

Lemma prog_nested : forall S X (P : prog S X -> Prop), (forall x, P (Done x)) ->
  (forall f, (forall s s' p, f s = Ret (s', p) -> P p) -> P (Step f)) -> forall p, P p.
Proof.
  intros S X P HD HS. fix IH 1. intros [x|f]; [apply HD|]. apply HS. intros s s' p E. destruct (f s) as [[s1 p1]| |]; [|discriminate|discriminate].
  pose proof (IH p1) as H. injection E as _ E. rewrite <- E. exact H.
Qed.

Section Tasks.
  Context {S X L K : Type} (sem : L -> K -> L * body S X).
  Notation task := (task S X L K).
  Notation system := (system S X L K).

  (** ** What a step does to a task *)
  Definition later (t' t : task) : Prop :=
    length (tk_calls t') < length (tk_calls t) \/
    tk_calls t' = tk_calls t /\
    match tk_now t, tk_now t' with
    | Waiting _ _ _, Running _ _ _ => True
    | Waiting _ _ _, Idle => True
    | Running _ _ _, Idle => True
    | Running _ _ (Step f), Running _ _ p => exists s s', f s = Ret (s', p)
    | _, _ => False
    end.

  Lemma later_wf : forall t, Acc later t.
  Proof.
    assert (G : forall n t, length (tk_calls t) = n -> (forall t', length (tk_calls t') < n -> Acc later t') -> Acc later t).
    { intros n t Hn IH.
      assert (HI : forall l cs lg, length cs = n -> Acc later (mk_task l cs Idle lg)).
      { intros l cs lg Hcs. constructor. intros t' [H|[_ H]]; [apply IH; cbn in H; lia|contradiction]. }
      assert (HI2 : forall u : task, length (tk_calls u) = n -> tk_now u = Idle -> Acc later u).
      { intros [l cs now lg] H1 H2. cbn in *. subst now. now apply HI. }
      assert (HR : forall p (u : task) l c, length (tk_calls u) = n -> tk_now u = Running l c p -> Acc later u).
      { apply (prog_nested (fun p => forall (u : task) l c, length (tk_calls u) = n -> tk_now u = Running l c p -> Acc later u)).
        - intros x u l c Hu Hnow. constructor. intros t' [H|[H1 H2]]; [apply IH; lia|]. rewrite Hnow in H2.
          destruct (tk_now t') eqn:E; try contradiction. apply HI2; congruence.
        - intros f HR u l c Hu Hnow. constructor. intros t' [H|[H1 H2]]; [apply IH; lia|]. rewrite Hnow in H2.
          destruct (tk_now t') as [| |l' c' p] eqn:E; try contradiction.
          + apply HI2; congruence.
          + destruct H2 as (s & s' & H2). apply (HR s s' p H2 t' l' c'); congruence. }
      destruct (tk_now t) as [|l c p|l c p] eqn:E; [now apply HI2| |eapply HR; eauto].
      constructor. intros t' [H|[H1 H2]]; [apply IH; lia|]. rewrite E in H2.
      destruct (tk_now t') as [| |l' c' p'] eqn:E'; try contradiction; [apply HI2; congruence|eapply HR; [congruence|exact E']]. }
    assert (HN : forall n t, length (tk_calls t) < n -> Acc later t).
    { induction n as [|n IHn]; intros t Ht; [lia|]. apply (G (length (tk_calls t)) t eq_refl). intros t' Ht'. apply IHn. lia. }
    intros t. exact (HN _ t (Nat.lt_succ_diag_r _)).
  Qed.

  Definition progress (y' y : system) : Prop := one_less later (sy_tasks y') (sy_tasks y).

  Lemma progress_intro : forall (ts : list task) i t t', nth_error ts i = Some t -> later t' t -> one_less later (update i t' ts) ts.
  Proof. intros ts i t t' H HL. exists i, t', t. auto. Qed.

  Lemma step_progress : forall ev y y', sys_step sem ev y = Ret y' -> y' = y \/ progress y' y.
  Proof.
    intros ev y y' H. destruct ev as [i|i]; cbn in H; destruct (nth_error (sy_tasks y) i) as [t|] eqn:Hi; try (injection H as <-; now left).
    - destruct (tk_now t) as [|l c p|l c [x|f]] eqn:Hn.
      + destruct (tk_calls t) as [|c cs] eqn:Hc; [injection H as <-; now left|].
        destruct (sem (tk_local t) c) as [l' [x|p]]; injection H as <-; right; (eapply progress_intro; [exact Hi|]); left; cbn; rewrite Hc; cbn; lia.
      + destruct (sy_holder y); [injection H as <-; now left|]. injection H as <-. right. eapply progress_intro; [exact Hi|].
        right. cbn. rewrite Hn. auto.
      + injection H as <-. right. eapply progress_intro; [exact Hi|]. right. cbn. rewrite Hn. auto.
      + destruct (f (sy_shared y)) as [[s' p']| |] eqn:Ef; try discriminate. injection H as <-. right. eapply progress_intro; [exact Hi|].
        right. cbn. rewrite Hn. eauto.
    - destruct (tk_now t) as [|l c p|l c p] eqn:Hn; injection H as <-; [now left| |];
      right; (eapply progress_intro; [exact Hi|]); right; cbn; rewrite Hn; (split; [reflexivity|]); [exact Logic.I|destruct p; exact Logic.I].
  Qed.

  (** ** Fair schedules *)
  Definition holds_right (y : system) : Prop :=
    forall i, sy_holder y = Some i <-> exists t l c p, nth_error (sy_tasks y) i = Some t /\ tk_now t = Running l c p.

  (** There is a task that can do something, no matter when it is polled. *)
  Lemma somebody : forall y, holds_right y -> all_done y \/
    exists i, i < length (sy_tasks y) /\ forall y', sys_step sem (Poll i) y = Ret y' -> progress y' y.
  Proof.
    intros y HL. destruct (sy_holder y) as [h|] eqn:Hh.
    - right. destruct (proj1 (HL h) Hh) as (t & l & c & p & Hi & Hn). exists h. split; [apply nth_error_Some; congruence|].
      intros y' H. destruct (step_progress _ _ H) as [->|HP]; [|exact HP]. exfalso. cbn in H. rewrite Hi, Hn in H.
      assert (HU : forall t', update h t' (sy_tasks y) = sy_tasks y -> t' = t).
      { intros t' E. pose proof (@nth_error_update _ (sy_tasks y) h t' h t Hi) as E2. rewrite E, Hi, Nat.eqb_refl in E2. congruence. }
      destruct p as [x|f].
      + injection H as H. apply (f_equal (@sy_tasks S X L K)) in H. apply HU in H. apply (f_equal (@tk_now S X L K)) in H. cbn in H. congruence.
      + destruct (f (sy_shared y)) as [[s' p']| |] eqn:Ef; try discriminate. injection H as H.
        apply (f_equal (@sy_tasks S X L K)) in H. cbn in H. apply HU in H. apply (f_equal (@tk_now S X L K)) in H. cbn in H.
        rewrite Hn in H. injection H as H. clear - Ef H. revert f s' p' Ef H. generalize (sy_shared y). intros s f s' p' Ef H.
        assert (NO : forall (q : prog S X) f s s', q = Step f -> f s = Ret (s', q) -> False).
        { apply (prog_nested (fun q => forall f s s', q = Step f -> f s = Ret (s', q) -> False)); [discriminate|].
          intros g IH f0 s0 s1 E1 E2. injection E1 as ->. exact (IH _ _ _ E2 f0 s0 s1 eq_refl E2). }
        exact (NO _ f s s' H Ef).
    - destruct (Forall_Exists_dec (fun t : task => tk_now t = Idle /\ tk_calls t = [])) with (l := sy_tasks y) as [HA|HE].
      { intros t. destruct (tk_now t) eqn:Hn; [|right; intros [H _]; discriminate|right; intros [H _]; discriminate].
        destruct (tk_calls t) eqn:Hc; [now left|right; intros [_ H]; discriminate]. }
      { left. exact HA. }
      right. apply Exists_exists in HE as (t & Hin & Hnd). apply In_nth_error in Hin as [i Hi]. exists i. split; [apply nth_error_Some; congruence|].
      intros y' H. destruct (step_progress _ _ H) as [->|HP]; [|exact HP]. exfalso. cbn in H. rewrite Hi in H.
      assert (HU : forall t', update i t' (sy_tasks y) = sy_tasks y -> t' = t).
      { intros t' E. pose proof (@nth_error_update _ (sy_tasks y) i t' i t Hi) as E2. rewrite E, Hi, Nat.eqb_refl in E2. congruence. }
      destruct (tk_now t) as [|l c p|l c p] eqn:Hn.
      + destruct (tk_calls t) as [|c cs] eqn:Hc; [apply Hnd; auto|].
        destruct (sem (tk_local t) c) as [l' [x|p]]; injection H as H; apply (f_equal (@sy_tasks S X L K)) in H; cbn in H; apply HU in H;
        apply (f_equal (fun t => length (tk_calls t))) in H; cbn in H; rewrite Hc in H; cbn in H; lia.
      + rewrite Hh in H. injection H as H. apply (f_equal (@sy_holder S X L K)) in H. cbn in H. congruence.
      + assert (E : sy_holder y = Some i) by (apply HL; eauto 6). congruence.
  Qed.

  Lemma before_succ : forall sched n, before sched (Datatypes.S n) = before sched n ++ [sched n].
  Proof. intros sched n. unfold before. rewrite seq_S, map_app. reflexivity. Qed.

  (** From any time on, something happens, or the system fails, or all is done. *)
  Lemma fair_progress : forall y0 sched n y,
    (forall evs y, sys_run sem evs y0 = Ret y -> holds_right y /\ length (sy_tasks y) = length (sy_tasks y0)) ->
    fair (length (sy_tasks y0)) sched -> sys_run sem (before sched n) y0 = Ret y ->
    all_done y \/ exists m, (exists y', sys_run sem (before sched m) y0 = Ret y' /\ progress y' y) \/ (forall y', sys_run sem (before sched m) y0 <> Ret y').
  Proof.
    intros y0 sched n y HL HF Hn. destruct (HL _ _ Hn) as [HR Hlen]. destruct (somebody HR) as [HD|(i & Hi & HS)]; [now left|right].
    rewrite Hlen in Hi. destruct (HF i n Hi) as (m & Hm & Em).
    assert (G : forall d, n + d <= m ->
      sys_run sem (before sched (n + d)) y0 = Ret y \/
      exists m, (exists y', sys_run sem (before sched m) y0 = Ret y' /\ progress y' y) \/ (forall y', sys_run sem (before sched m) y0 <> Ret y')).
    { induction d as [|d IH]; intros Hd; [left; now rewrite Nat.add_0_r|]. destruct IH as [E|E]; [lia| |now right].
      destruct (sys_step sem (sched (n + d)) y) as [y1| |] eqn:E1.
      - destruct (step_progress _ _ E1) as [->|HP].
        + left. replace (n + Datatypes.S d) with (Datatypes.S (n + d)) by lia. rewrite before_succ, sys_run_app, E. cbn. now rewrite E1.
        + right. exists (Datatypes.S (n + d)). left. exists y1. split; [|exact HP]. rewrite before_succ, sys_run_app, E. cbn. now rewrite E1.
      - right. exists (Datatypes.S (n + d)). right. intros y'. rewrite before_succ, sys_run_app, E. cbn. rewrite E1. discriminate.
      - right. exists (Datatypes.S (n + d)). right. intros y'. rewrite before_succ, sys_run_app, E. cbn. rewrite E1. discriminate. }
    destruct (G (m - n)) as [E|E]; [lia| |exact E]. replace (n + (m - n)) with m in E by lia.
    exists (Datatypes.S m). destruct (sys_step sem (Poll i) y) as [y1| |] eqn:E1.
    - left. exists y1. split; [|now apply HS]. rewrite before_succ, sys_run_app, E. cbn. rewrite Em, E1. reflexivity.
    - right. intros y'. rewrite before_succ, sys_run_app, E. cbn [bind sys_run]. rewrite Em, E1. discriminate.
    - right. intros y'. rewrite before_succ, sys_run_app, E. cbn [bind sys_run]. rewrite Em, E1. discriminate.
  Qed.

  Lemma fair_done : forall y0 sched,
    (forall evs y, sys_run sem evs y0 = Ret y -> holds_right y /\ length (sy_tasks y) = length (sy_tasks y0)) ->
    fair (length (sy_tasks y0)) sched ->
    exists n, (exists y, sys_run sem (before sched n) y0 = Ret y /\ all_done y) \/ (forall y, sys_run sem (before sched n) y0 <> Ret y).
  Proof.
    intros y0 sched HL HF.
    assert (G : forall ts, Acc (one_less later) ts -> forall n y, sy_tasks y = ts -> sys_run sem (before sched n) y0 = Ret y ->
      exists n, (exists y, sys_run sem (before sched n) y0 = Ret y /\ all_done y) \/ (forall y, sys_run sem (before sched n) y0 <> Ret y)).
    { induction 1 as [ts _ IH]. intros n y Hts Hn. destruct (@fair_progress _ _ _ _ HL HF Hn) as [HD|(m & [(y' & E & HP)|E])]; [eauto| |eauto].
      unfold progress in HP. rewrite Hts in HP. exact (IH _ HP m y' eq_refl E). }
    exact (G _ (one_less_wf later_wf _) 0 y0 eq_refl eq_refl).
  Qed.

  Lemma done_stays : forall y ev, all_done y -> sys_step sem ev y = Ret y.
  Proof.
    intros y ev HD. unfold all_done in HD. rewrite Forall_forall in HD.
    destruct ev as [i|i]; cbn; destruct (nth_error (sy_tasks y) i) as [t|] eqn:Hi; try reflexivity;
      destruct (HD t (nth_error_In _ _ Hi)) as [-> H]; [now rewrite H|reflexivity].
  Qed.

  (** ** Rounds *)
  Section Rounds.
    Context (b : nat).
    Hypothesis HB : forall l c, match snd (sem l c) with Locked p => short b p | Local _ => True end.

    Definition costs (t : task) (w : nat) : Prop :=
      match tk_now t with
      | Idle => w = length (tk_calls t) * (b + 3)
      | Waiting _ _ p => short b p /\ w = length (tk_calls t) * (b + 3) + b + 2
      | Running _ _ p => exists d, d <= b /\ short d p /\ w = length (tk_calls t) * (b + 3) + d + 1
      end.

    Lemma short_more : forall d (p : prog S X), short d p -> forall d', d <= d' -> short d' p.
    Proof.
      induction 1 as [d x|d f H IH]; intros d' Hd; [constructor|]. destruct d' as [|d']; [lia|]. constructor. intros s s' p E. apply (IH _ _ _ E). lia.
    Qed.

    (** A step costs something, unless nothing changes. *)
    Lemma step_costs : forall ev y y' ws, Forall2 costs (sy_tasks y) ws -> sys_step sem ev y = Ret y' ->
      y' = y \/ exists ws', Forall2 costs (sy_tasks y') ws' /\ list_sum ws' < list_sum ws.
    Proof.
      assert (U : forall (ts : list task) ws i t t', Forall2 costs ts ws -> nth_error ts i = Some t ->
        (forall w, costs t w -> exists w', costs t' w' /\ w' < w) ->
        exists ws', Forall2 costs (update i t' ts) ws' /\ list_sum ws' < list_sum ws).
      { intros ts ws i t t' HF. revert i. induction HF as [|u w ts ws Hu HF IH]; intros [|i] Hi Ht; try discriminate; cbn in Hi.
        - injection Hi as ->. destruct (Ht w Hu) as (w' & Hw & Hl). exists (w' :: ws). split; [now constructor|]. unfold list_sum in *. cbn. lia.
        - destruct (IH i Hi Ht) as (ws' & HF' & Hl). exists (w :: ws'). split; [now constructor|]. unfold list_sum in *. cbn. lia. }
      intros ev y y' ws HF H. destruct ev as [i|i]; cbn in H; destruct (nth_error (sy_tasks y) i) as [t|] eqn:Hi; try (injection H as <-; now left).
      - destruct (tk_now t) as [|l c p|l c [x|f]] eqn:Hn.
        + destruct (tk_calls t) as [|c cs] eqn:Hc; [injection H as <-; now left|]. pose proof (HB (tk_local t) c) as HS.
          destruct (sem (tk_local t) c) as [l' [x|p]]; cbn in HS; injection H as <-; right; cbn; eapply U; eauto; unfold costs; cbn; rewrite Hn, Hc; cbn; intros w ->.
          * eexists. split; [reflexivity|]. lia.
          * eexists. split; [split; [exact HS|reflexivity]|]. lia.
        + destruct (sy_holder y); [injection H as <-; now left|]. injection H as <-. right. cbn. eapply U; eauto. unfold costs. cbn. rewrite Hn.
          intros w [HS ->]. eexists. split; [exists b; split; [reflexivity|]; split; [exact HS|reflexivity]|]. lia.
        + injection H as <-. right. cbn. eapply U; eauto. unfold costs. cbn. rewrite Hn. intros w (d & _ & _ & ->). eexists. split; [reflexivity|]. lia.
        + destruct (f (sy_shared y)) as [[s' p']| |] eqn:Ef; try discriminate. injection H as <-. right. cbn. eapply U; eauto. unfold costs. cbn. rewrite Hn.
          intros w (d & Hd & HS & ->). inversion HS as [|d0 f0 HS' E1 E2]; subst. exists (length (tk_calls t) * (b + 3) + d0 + 1). split; [|lia].
          exists d0. split; [lia|]. split; [|reflexivity]. exact (HS' _ _ _ Ef).
      - destruct (tk_now t) as [|l c p|l c p] eqn:Hn; injection H as <-; [now left| |]; right; cbn; (eapply U; eauto); unfold costs; cbn; rewrite Hn.
        + intros w [HS ->]. eexists. split; [reflexivity|]. lia.
        + intros w (d & _ & _ & ->). eexists. split; [reflexivity|]. lia.
    Qed.

    Lemma run_costs : forall evs y y' ws, Forall2 costs (sy_tasks y) ws -> sys_run sem evs y = Ret y' ->
      exists ws', Forall2 costs (sy_tasks y') ws' /\ list_sum ws' <= list_sum ws.
    Proof.
      induction evs as [|ev evs IH]; intros y y' ws HF H; cbn in H; [injection H as <-; eauto|].
      destruct (sys_step sem ev y) as [y1| |] eqn:E1; try discriminate. cbn in H.
      destruct (step_costs _ _ HF E1) as [->|(ws1 & HF1 & Hl)]; [eauto|]. destruct (IH _ _ _ HF1 H) as (ws' & HF' & Hl'). exists ws'. split; [exact HF'|lia].
    Qed.

    Lemma done_runs : forall evs y, all_done y -> sys_run sem evs y = Ret y.
    Proof. induction evs as [|ev evs IH]; intros y HD; cbn; [reflexivity|]. rewrite (done_stays ev HD). cbn. auto. Qed.

    (** A round costs something, unless all is done. *)
    Lemma round_costs : forall k evs y y' ws, (forall i, i < k -> In (Poll i) evs) -> length (sy_tasks y) <= k -> holds_right y ->
      Forall2 costs (sy_tasks y) ws -> sys_run sem evs y = Ret y' -> all_done y \/
      exists ws', Forall2 costs (sy_tasks y') ws' /\ list_sum ws' < list_sum ws.
    Proof.
      intros k evs y y' ws Hev Hk HL HF H. destruct (somebody HL) as [HD|(i & Hi & HS)]; [now left|right].
      assert (Hin : In (Poll i) evs) by (apply Hev; lia). clear Hev.
      induction evs as [|ev evs IH]; [destruct Hin|]. cbn in H. destruct (sys_step sem ev y) as [y1| |] eqn:E1; try discriminate. cbn in H.
      destruct (step_costs _ _ HF E1) as [->|(ws1 & HF1 & Hl)].
      - destruct Hin as [->|Hin]; [|exact (IH H Hin)]. exfalso. specialize (HS _ E1). clear - HS.
        assert (NO : forall (ts : list task), Acc (one_less later) ts -> one_less later ts ts -> False) by (induction 1; eauto).
        exact (NO _ (one_less_wf later_wf _) HS).
      - destruct (run_costs _ _ HF1 H) as (ws' & HF' & Hl'). exists ws'. split; [exact HF'|lia].
    Qed.

    Lemma rounds_done : forall y0 k r evs y ws,
      (forall evs y, sys_run sem evs y0 = Ret y -> holds_right y /\ length (sy_tasks y) = length (sy_tasks y0)) ->
      length (sy_tasks y0) <= k -> Forall2 costs (sy_tasks y0) ws -> list_sum ws <= r -> in_rounds k r evs -> sys_run sem evs y0 = Ret y -> all_done y.
    Proof.
      intros y0 k r evs y ws HL Hk HF Hr (segs & -> & Hlen & Hsegs) H.
      assert (G : forall segs pre y1 ws1, sys_run sem pre y0 = Ret y1 -> Forall2 costs (sy_tasks y1) ws1 -> list_sum ws1 <= length segs ->
        Forall (fun seg => forall i, i < k -> In (Poll i) seg) segs -> sys_run sem (concat segs) y1 = Ret y -> all_done y).
      { clear segs Hlen Hsegs H. induction segs as [|seg segs IH]; intros pre y1 ws1 Hpre HF1 Hs HFs H.
        - cbn in H. injection H as ->. destruct (HL _ _ Hpre) as [HR _]. destruct (somebody HR) as [HD|(i & Hi & HS)]; [exact HD|exfalso].
          destruct (nth_error (sy_tasks y) i) as [t|] eqn:Et; [|apply nth_error_None in Et; lia].
          cbn in Hs. assert (HZ : Forall (fun w => w = 0) ws1).
          { clear - Hs. induction ws1 as [|w ws1 IH]; constructor; unfold list_sum in *; cbn in *; [lia|apply IH; lia]. }
          assert (HT : forall ts ws, Forall2 costs ts ws -> Forall (fun w => w = 0) ws -> Forall (fun t : task => tk_now t = Idle /\ tk_calls t = []) ts).
          { clear. induction 1 as [|t w ts ws Ht HF IH]; intros HZ; constructor; inversion HZ as [|? ? Hw HZ']; subst; auto. unfold costs in Ht. destruct (tk_now t).
            - split; [reflexivity|]. destruct (tk_calls t); [reflexivity|cbn in Ht; lia].
            - destruct Ht as [_ Ht]. lia.
            - destruct Ht as (d & _ & _ & Ht). lia. }
          pose proof (HT _ _ HF1 HZ) as HD. specialize (HS y (done_stays _ HD)).
          assert (NO : forall (ts : list task), Acc (one_less later) ts -> one_less later ts ts -> False) by (clear; induction 1; eauto).
          exact (NO _ (one_less_wf later_wf _) HS).
        - cbn in H. rewrite sys_run_app in H. destruct (sys_run sem seg y1) as [y2| |] eqn:E2; try discriminate. cbn in H.
          inversion HFs as [|? ? Hseg HFs']; subst. destruct (HL _ _ Hpre) as [HR Hl1].
          destruct (@round_costs k seg y1 y2 ws1 Hseg ltac:(lia) HR HF1 E2) as [HD|(ws2 & HF2 & Hl2)].
          + rewrite (done_runs seg HD) in E2. injection E2 as <-. rewrite (done_runs _ HD) in H. injection H as <-. exact HD.
          + apply (IH (pre ++ seg) y2 ws2); auto.
            * rewrite sys_run_app, Hpre. exact E2.
            * cbn in Hs. lia. }
      apply (G segs [] y0 ws); auto. rewrite Hlen. exact Hr.
    Qed.
  End Rounds.
End Tasks.

(** From the start. *)
Lemma start_right : forall S X L K (sem : L -> K -> L * body S X) s0 tasks evs y,
  sys_run sem evs (system_new s0 tasks) = Ret y -> holds_right y /\ length (sy_tasks y) = length (sy_tasks (system_new (X := X) s0 tasks)).
Proof.
  intros S X L K sem s0 tasks evs y H. destruct (@sys_run_any _ _ _ _ sem tasks evs _ _ (any_ok_new sem s0 tasks) H) as (H1 & H2 & H3). split.
  - intros i. rewrite H1. unfold running. split.
    + intros (t & Hi & Hr). destruct (tk_now t) as [| |l c p] eqn:E; try contradiction. eauto 6.
    + intros (t & l & c & p & Hi & E). exists t. rewrite E. auto.
  - cbn. now rewrite map_length.
Qed.

Lemma start_costs : forall S X L K b (tasks : list (L * list K)) (s0 : S),
  Forall2 (costs (S := S) (X := X) b) (sy_tasks (system_new s0 tasks)) (map (fun lcs => length (snd lcs) * (b + 3)) tasks).
Proof. intros S X L K b tasks s0. cbn. induction tasks as [|[l cs] tasks IH]; cbn; constructor; auto. reflexivity. Qed.

Lemma sum_calls : forall L K b (tasks : list (L * list K)),
  list_sum (map (fun lcs => length (snd lcs) * (b + 3)) tasks) = all_calls tasks * (b + 3).
Proof. intros L K b. unfold all_calls, list_sum. induction tasks as [|lcs tasks IH]; cbn [map fold_right]; [reflexivity|]. rewrite IH. lia. Qed.

(** ** Histories *)
Section Histories.
  Context {S X L K : Type} (sem : L -> K -> L * body S X).

  Lemma run_hist : forall evs y y', sys_run sem evs y = Ret y' ->
    Forall (fun e => fst e < length (sy_tasks y)) (sy_hist y) -> Forall (fun e => fst e < length (sy_tasks y)) (sy_hist y') /\ length (sy_tasks y') = length (sy_tasks y).
  Proof.
    induction evs as [|ev evs IH]; intros y y' H HF; cbn in H; [injection H as <-; auto|].
    destruct (sys_step sem ev y) as [y1| |] eqn:E1; try discriminate. cbn in H.
    assert (G : Forall (fun e => fst e < length (sy_tasks y)) (sy_hist y1) /\ length (sy_tasks y1) = length (sy_tasks y)).
    { destruct ev as [i|i]; cbn in E1; destruct (nth_error (sy_tasks y) i) as [t|] eqn:Hi; try (injection E1 as <-; now split).
      - assert (i < length (sy_tasks y)) by (apply nth_error_Some; congruence).
        destruct (tk_now t) as [|l c p|l c [x|f]].
        + destruct (tk_calls t) as [|c cs]; [injection E1 as <-; now split|].
          destruct (sem (tk_local t) c) as [l' [x|p]]; injection E1 as <-; cbn; rewrite length_update; now split.
        + destruct (sy_holder y); injection E1 as <-; cbn; rewrite ?length_update; now split.
        + injection E1 as <-. cbn. rewrite length_update. split; [|reflexivity]. apply Forall_app. split; [exact HF|]. repeat constructor. assumption.
        + destruct (f (sy_shared y)) as [[s' p']| |]; try discriminate. injection E1 as <-. cbn. rewrite length_update. now split.
      - destruct (tk_now t); injection E1 as <-; cbn; rewrite ?length_update; now split. }
    destruct G as [G1 G2]. rewrite <- G2 in G1. destruct (IH _ _ H G1) as [G3 G4]. rewrite G2 in G3. split; [exact G3|congruence].
  Qed.

  Lemma hist_length : forall A n (h : list (nat * A)), Forall (fun e => fst e < n) h ->
    length h = list_sum (map (fun i => length (of_task i h)) (seq 0 n)).
  Proof.
    intros A n. induction h as [|[i a] h IH]; intros HF.
    - unfold of_task. cbn. induction (seq 0 n); cbn; auto.
    - inversion HF as [|? ? Hi HF']; subst. cbn in Hi. cbn [length]. rewrite (IH HF').
      assert (G : forall l, NoDup l -> list_sum (map (fun j => length (of_task j ((i, a) :: h))) l) =
        (if in_dec Nat.eq_dec i l then 1 else 0) + list_sum (map (fun j => length (of_task j h)) l)).
      { unfold list_sum. induction l as [|j l IHl]; intros HN; [reflexivity|]. inversion HN as [|? ? Hj HN']; subst. cbn [map fold_right]. rewrite (IHl HN').
        unfold of_task at 1. cbn [filter fst]. destruct (Nat.eqb_spec i j) as [->|Hne].
        - cbn [map length]. fold (of_task j h). destruct (in_dec Nat.eq_dec j l) as [Hin|_]; [contradiction|]. destruct (in_dec Nat.eq_dec j (j :: l)) as [_|Hn]; [|destruct Hn; now left].
          unfold of_task. lia.
        - fold (of_task j h). destruct (in_dec Nat.eq_dec i l) as [Hin|Hin]; destruct (in_dec Nat.eq_dec i (j :: l)) as [Hin'|Hin']; try lia.
          + destruct Hin'. now right.
          + destruct Hin' as [E|E]; [congruence|contradiction]. }
      rewrite (G _ (seq_NoDup _ _)). destruct (in_dec Nat.eq_dec i (seq 0 n)) as [_|Hn]; [reflexivity|]. destruct Hn. apply in_seq. lia.
  Qed.

  (** Polls cancel nothing. *)
  Lemma polls_log : forall evs y y', Forall is_poll evs -> sys_run sem evs y = Ret y' ->
    Forall (fun t : task S X L K => Forall (fun e => snd e <> None) (tk_log t)) (sy_tasks y) ->
    Forall (fun t : task S X L K => Forall (fun e => snd e <> None) (tk_log t)) (sy_tasks y').
  Proof.
    assert (U : forall (ts : list (task S X L K)) i t', Forall (fun t : task S X L K => Forall (fun e => snd e <> None) (tk_log t)) ts ->
      Forall (fun e => snd e <> None) (tk_log t') -> Forall (fun t : task S X L K => Forall (fun e => snd e <> None) (tk_log t)) (update i t' ts)).
    { induction ts as [|u ts IH]; intros [|i] t' HF Ht; cbn; auto; inversion HF; subst; constructor; auto. }
    induction evs as [|ev evs IH]; intros y y' HP H HF; cbn in H; [injection H as <-; auto|].
    inversion HP as [|? ? Hp HP']; subst. destruct ev as [i|i]; [|contradiction].
    destruct (sys_step sem (Poll i) y) as [y1| |] eqn:E1; try discriminate. cbn in H. apply (IH y1 y' HP' H).
    cbn in E1. destruct (nth_error (sy_tasks y) i) as [t|] eqn:Hi; [|injection E1 as <-; exact HF].
    assert (Ht : Forall (fun e => snd e <> None) (tk_log t)) by (rewrite Forall_forall in HF; exact (HF _ (nth_error_In _ _ Hi))).
    destruct (tk_now t) as [|l c p|l c [x|f]].
    + destruct (tk_calls t) as [|c cs]; [injection E1 as <-; exact HF|].
      destruct (sem (tk_local t) c) as [l' [x|p]]; injection E1 as <-; cbn; apply U; cbn; auto. apply Forall_app. split; [exact Ht|]. repeat constructor. discriminate.
    + destruct (sy_holder y); injection E1 as <-; cbn; [exact HF|]. apply U; auto.
    + injection E1 as <-. cbn. apply U; auto. cbn. apply Forall_app. split; [exact Ht|]. repeat constructor. discriminate.
    + destruct (f (sy_shared y)) as [[s' p']| |]; try discriminate. injection E1 as <-. cbn. apply U; auto.
  Qed.
End Histories.

Lemma fair_polls : forall sched n, Forall is_poll (before (fun m => Poll (sched m)) n).
Proof. intros sched n. unfold before. apply Forall_forall. intros ev H. apply in_map_iff in H as (m & <- & _). exact I. Qed.

Lemma of_task_flat_map : forall A B (f : A -> list B) i h,
  of_task i (flat_map (fun e => map (pair (fst e)) (f (snd e))) h) = flat_map f (of_task i h).
Proof.
  intros A B f i. unfold of_task. induction h as [|[j a] h IH]; [reflexivity|]. cbn [flat_map fst snd]. rewrite filter_app, map_app, IH. cbn [filter fst].
  destruct (Nat.eqb_spec j i) as [->|Hne]; cbn [map flat_map snd].
  - f_equal. induction (f a) as [|b bs IHb]; cbn; [reflexivity|]. rewrite Nat.eqb_refl. cbn. now rewrite IHb.
  - replace (map snd (filter _ _)) with (@nil B); [reflexivity|]. induction (f a) as [|b bs IHb]; cbn; [reflexivity|].
    rewrite (proj2 (Nat.eqb_neq j i) Hne). exact IHb.
Qed.

Lemma snd_flat_map : forall A B (f : A -> list B) (h : list (nat * A)),
  map snd (flat_map (fun e => map (pair (fst e)) (f (snd e))) h) = flat_map f (map snd h).
Proof.
  intros A B f. induction h as [|[j a] h IH]; [reflexivity|]. cbn [flat_map map fst snd]. rewrite map_app, IH. f_equal.
  induction (f a) as [|b bs IHb]; cbn; congruence.
Qed.

(** All calls of a log with a result, none cancelled. *)
Lemma log_new : forall S X L K (s0 : S) (tasks : list (L * list K)),
  Forall (fun t : task S X L K => Forall (fun e => snd e <> None) (tk_log t)) (sy_tasks (system_new s0 tasks)).
Proof. intros S X L K s0 tasks. cbn. apply Forall_forall. intros t H. apply in_map_iff in H as (lcs & <- & _). constructor. Qed.

Lemma done_holder : forall S X L K (y : system S X L K), holds_right y -> all_done y -> sy_holder y = None.
Proof.
  intros S X L K y HR HD. destruct (sy_holder y) as [i|] eqn:E; [exfalso|reflexivity]. destruct (proj1 (HR i) E) as (t & l & c & p & Hi & Hn).
  unfold all_done in HD. rewrite Forall_forall in HD. destruct (HD t (nth_error_In _ _ Hi)). congruence.
Qed.

(** ** Encoders *)
Lemma fair_encoders : forall V (encode : encode_fn V) enc encp flushp (tasks : list (unit * list (ecall infallible V unit))) sched,
  lawful_encode encode enc ->
  (forall v, implements (encp v) (fun s => encode _ _ _ (into_vec_consumer x00) v s)) ->
  implements flushp (fun s => c_flush (into_vec_consumer x00) s) ->
  fair (length tasks) (fun n => Poll (sched n)) ->
  exists n y order, sys_run (shared_encoder encp flushp) (before (fun n => Poll (sched n)) n) (system_new into_vec_new tasks) = Ret y /\ all_done y /\
    into_vec_into_vec (sy_shared y) = concat (map enc (map snd order)) /\ Forall (fun e => fst e < length tasks) order /\
    forall i u cs, nth_error tasks i = Some (u, cs) -> of_task i order = consumed_values cs.
Proof.
  intros V encode enc encp flushp tasks sched L IE IF HF. pose (sem := shared_encoder (F := unit) encp flushp).
  assert (HS : forall evs y ev, careful sem (system_new into_vec_new tasks) evs y -> exists y', sys_step sem ev y = Ret y').
  { intros evs y ev H. exact (shared_into_vec_step L IE IF ev H). }
  assert (HF' : fair (length (sy_tasks (system_new (S := into_vec byte) (X := res unit infallible) into_vec_new tasks))) (fun n => Poll (sched n))) by (cbn; rewrite !map_length; exact HF).
      destruct (@fair_done _ _ _ _ sem (system_new into_vec_new tasks) (fun n => Poll (sched n)) (@start_right _ _ _ _ sem into_vec_new tasks) HF') as (n & [(y & Hy & HD)|HN]).
  2:{ destruct (polls_succeed HS (careful_nil _ _) (fair_polls sched n)) as [y' E]. destruct (HN _ E). }
  pose proof (@polls_careful _ _ _ _ sem _ _ _ (fair_polls sched n) Hy) as Hc. destruct (@start_right _ _ _ _ sem _ _ _ _ Hy) as [HR Hlen].
  pose (f := fun e : unit * ecall infallible V unit * res unit infallible => match snd (fst e) with EConsume v => [v] | _ => [] end).
  exists n, y, (flat_map (fun e => map (pair (fst e)) (f (snd e))) (sy_hist y)). splits; auto.
  - destruct (shared_into_vec L IE IF Hc) as (w & k & u & <- & HI). destruct (careful_ok Hc (sys_ok_new sem into_vec_new tasks)) as (_ & H2 & _).
    unfold lock_ok in H2. rewrite (done_holder HR HD) in H2. destruct H2 as [-> _]. apply iv_rel_read in HI as [_ ->].
    rewrite snd_flat_map. clear. induction (sy_hist y) as [|[i [[u [v|g| |[]]] x]] h IH]; cbn; [reflexivity|rewrite IH..]; reflexivity.
  - destruct (@run_hist _ _ _ _ sem _ _ _ Hy) as [HH _]; [constructor|]. cbn in HH. rewrite map_length in HH.
    apply Forall_forall. intros [i v] H. apply in_flat_map in H as (e & He & H). apply in_map_iff in H as (v' & E & _). injection E as <- <-.
    rewrite Forall_forall in HH. exact (HH _ He).
  - intros i u cs Hi. rewrite of_task_flat_map. destruct (nth_error (sy_tasks y) i) as [t|] eqn:Ht.
    2:{ apply nth_error_None in Ht. cbn in Hlen. rewrite map_length in Hlen. assert (i < length tasks) by (apply nth_error_Some; congruence). lia. }
    destruct (careful_ok Hc (sys_ok_new sem into_vec_new tasks)) as (_ & _ & _ & HT). destruct (HT _ _ Ht) as ([l' cs'] & E1 & E2 & E3 & _).
    rewrite Hi in E1. injection E1 as <- <-. cbn in E2. unfold all_done in HD. rewrite Forall_forall in HD. destruct (HD t (nth_error_In _ _ Ht)) as [N1 N2].
    unfold pending in E2. rewrite N1, N2 in E2. cbn in E2. rewrite app_nil_r in E2. rewrite E3.
    pose proof (@polls_log _ _ _ _ sem _ _ _ (fair_polls sched n) Hy (@log_new _ _ _ _ _ _)) as HL. rewrite Forall_forall in HL. specialize (HL t (nth_error_In _ _ Ht)).
    transitivity (flat_map (fun lc => match snd lc with EConsume v => [v] | _ => [] end) (map fst (tk_log t))).
    + clear - HL. unfold locked_calls. induction HL as [|[[l c] [x|]] log Hx HL IH]; cbn in *; [reflexivity| |congruence].
      destruct c as [v|g| |[]]; cbn; rewrite IH; reflexivity.
    + rewrite <- E2. clear. unfold consumed_values. revert u. induction cs as [|c cs IH]; intros u; cbn; [reflexivity|]. rewrite IH. reflexivity.
Qed.

(** ** Decoders. All tasks make the same call again and again. *)
Section SameCall.
  Context {S X L K V F E O : Type} (sem : L -> K -> L * body S X) (l0 : L) (c0 : K) (p0 : prog S X).
  Context (decode : decode_fn V O) (dec : list byte -> parse V O) (enc : V -> list byte) (P : bulk_producer S byte F E) (R : S -> list byte -> res F E -> nat -> Prop) (D : S -> Prop).
  Context (ans : res (V + F) (decode_error F E O) -> X).
  Hypothesis Hsem : sem l0 c0 = (l0, Locked p0).
  Hypothesis Hp0 : forall s, run_prog p0 s = let* (s', x) := decoder_produce decode P s in Ret (s', ans x).
  Hypothesis LD : lawful_decode decode dec.
  Hypothesis LP : lawful_producer P R D.
  Hypothesis RT : round_trips enc dec.
  Hypothesis RF : reads_no_further dec.
  Hypothesis NE : forall v, enc v <> [].

  Lemma alone_is : forall s, call_alone sem (l0, c0) s = let* (s', x) := decoder_produce decode P s in Ret (s', ans x).
  Proof. intros s. unfold call_alone. cbn. rewrite Hsem. cbn. apply Hp0. Qed.

  Lemma produce_value : forall s v vs more l k, R s (enc v ++ concat (map enc vs) ++ more) l k ->
    exists s', decoder_produce decode P s = Ret (s', Ok (inl v)) /\ R s' (concat (map enc vs) ++ more) l 0.
  Proof.
    intros s v vs more l k HR. pose proof (decoder_produce_item LD LP _ _ _ HR) as H.
    assert (Hd : dec (enc v ++ concat (map enc vs) ++ more) = Parsed v (length (enc v))).
    { destruct (proj1 RF _ _ _ (RT v)) as [_ H1]. rewrite firstn_all in H1. apply H1. }
    rewrite Hd in H. rewrite skipn_app, skipn_all, Nat.sub_diag in H. apply H. assert (HN : enc v <> []) by apply NE. destruct (enc v); cbn; congruence.
  Qed.

  Lemma produce_values : forall n vs more s l k, R s (concat (map enc vs) ++ more) l k -> n <= length vs ->
    exists s' k', in_turn (repeat (call_alone sem (l0, c0)) n) s = (map (fun v => ans (Ok (inl v))) (firstn n vs), Ret s') /\
      R s' (concat (map enc (skipn n vs)) ++ more) l k'.
  Proof.
    induction n as [|n IH]; intros vs more s l k HR Hn; [cbn; eauto|]. destruct vs as [|v vs]; [cbn in Hn; lia|].
    cbn [map concat] in HR. rewrite <- app_assoc in HR. destruct (produce_value _ _ _ HR) as (s1 & E1 & HR1).
    destruct (IH vs more s1 l 0 HR1) as (s' & k' & E2 & HR2); [cbn in Hn; lia|].
    exists s', k'. split; [|exact HR2]. cbn [repeat in_turn firstn map]. rewrite alone_is, E1. cbn [bind]. rewrite E2. reflexivity.
  Qed.

  Lemma produce_returns : forall s xs l k, R s xs l k -> exists s' x, decoder_produce decode P s = Ret (s', x).
  Proof.
    intros s xs l k HR. destruct xs as [|x0 xs].
    - destruct (decoder_produce_end decode LP _ _ _ HR) as (s' & E1 & _). eauto.
    - pose proof (decoder_produce_item LD LP _ _ _ HR (not_eq_sym (@nil_cons _ x0 xs))) as H. destruct (dec (x0 :: xs)); destruct H as (s' & E1 & _); eauto.
  Qed.

  Lemma with_same : forall k, with_locals sem l0 (repeat c0 k) = repeat (l0, c0) k.
  Proof. induction k as [|k IH]; cbn; [reflexivity|]. rewrite Hsem. cbn. now rewrite IH. Qed.

  Lemma forall_repeat : forall A (x : A) n, Forall (eq x) (repeat x n).
  Proof. induction n; cbn; constructor; auto. Qed.

  Section Run.
    Context (ks : list nat) (vs : list V) (more : list byte) (s0 : S) (l : res F E) (k : nat).
    Hypothesis HR0 : R s0 (concat (map enc vs) ++ more) l k.
    Hypothesis Hks : list_sum ks <= length vs.
    Let tasks := map (fun k => (l0, repeat c0 k)) ks.

    Lemma task_facts : forall evs y i t, careful sem (system_new s0 tasks) evs y -> nth_error (sy_tasks y) i = Some t ->
      exists k, nth_error ks i = Some k /\ Forall (fun e => fst e = (l0, c0)) (of_task i (sy_hist y)) /\
        Forall (eq (l0, c0)) (map fst (tk_log t) ++ pending t) /\
        length (tk_log t) + length (pending t) <= k /\ length (of_task i (sy_hist y)) <= k /\
        (pending t = [] -> tk_calls t = [] -> length (tk_log t) = k) /\
        of_task i (sy_hist y) = locked_calls sem (tk_log t).
    Proof.
      intros evs y i t H Ht. destruct (careful_ok H (sys_ok_new sem s0 tasks)) as (_ & _ & _ & HT). destruct (HT _ _ Ht) as ([l' cs'] & E1 & E2 & E3 & _).
      unfold tasks in E1. rewrite nth_error_map in E1. destruct (nth_error ks i) as [n|] eqn:En; [|discriminate]. cbn in E1. injection E1 as <- <-.
      cbn [fst snd] in E2. rewrite with_same in E2. exists n.
      pose proof (forall_repeat (l0, c0) n) as HF. rewrite E2 in HF. rewrite app_assoc in HF. apply Forall_app in HF as [HF _].
      pose proof (f_equal (@length _) E2) as HL. rewrite repeat_length, !app_length, map_length in HL.
      assert (G : Forall (fun e => fst e = (l0, c0)) (locked_calls sem (tk_log t)) /\ length (locked_calls sem (tk_log t)) <= length (tk_log t)).
      { apply Forall_app in HF as [HF _]. clear - HF. unfold locked_calls. induction (tk_log t) as [|[[a c] [x|]] log IH]; cbn in *; [split; auto| |].
        - inversion HF as [|? ? Ha HF']; subst. destruct (IH HF') as [I1 I2]. destruct (snd (sem a c)); cbn; (split; [|lia]); auto.
        - inversion HF as [|? ? Ha HF']; subst. destruct (IH HF') as [I1 I2]. split; [exact I1|lia]. }
      rewrite E3. destruct G as [G1 G2]. splits; auto; try lia. intros Hp Hc. rewrite Hp, Hc in HL. cbn in HL. lia.
    Qed.

    Lemma hist_facts : forall evs y, careful sem (system_new s0 tasks) evs y ->
      Forall (fun e => fst (snd e) = (l0, c0)) (sy_hist y) /\ length (sy_hist y) <= list_sum ks /\
      length (sy_tasks y) = length ks /\ Forall (fun e => fst e < length ks) (sy_hist y).
    Proof.
      intros evs y H.
      assert (Hrun : sys_run sem evs (system_new s0 tasks) = Ret y) by (clear - H; induction H as [|y ev y1 evs y' E _ _ IH]; cbn; [reflexivity|]; now rewrite E).
      destruct (@run_hist _ _ _ _ sem _ _ _ Hrun) as [HH Hl]; [constructor|].
      assert (Hl' : length (sy_tasks y) = length ks) by (rewrite Hl; cbn; unfold tasks; now rewrite !map_length).
      rewrite <- Hl, Hl' in HH. splits; auto.
      - apply Forall_forall. intros [i e] He. rewrite Forall_forall in HH. pose proof (HH _ He) as Hi. cbn in Hi.
        destruct (nth_error (sy_tasks y) i) as [t|] eqn:Ht; [|apply nth_error_None in Ht; lia].
        destruct (@task_facts _ _ _ _ H Ht) as (n & _ & HF & _). rewrite Forall_forall in HF. apply HF. unfold of_task. apply in_map_iff. exists (i, e). split; [reflexivity|].
        apply filter_In. split; [exact He|]. cbn. apply Nat.eqb_refl.
      - rewrite (hist_length HH).
        assert (G : forall i, i < length ks -> exists n, nth_error ks i = Some n /\ length (of_task i (sy_hist y)) <= n).
        { intros i Hi. destruct (nth_error (sy_tasks y) i) as [t|] eqn:Ht; [|apply nth_error_None in Ht; lia].
          destruct (@task_facts _ _ _ _ H Ht) as (n & En & _ & _ & _ & Hn & _). eauto. }
        assert (G2 : forall (g : nat -> nat) ks' off, (forall i, i < length ks' -> exists n, nth_error ks' i = Some n /\ g (off + i) <= n) ->
          list_sum (map g (seq off (length ks'))) <= list_sum ks').
        { clear. unfold list_sum. intros g. induction ks' as [|a ks' IH]; intros off HG; cbn [length seq map fold_right]; [lia|].
          destruct (HG 0) as (n & E0 & Hn); [cbn; lia|]. cbn in E0. injection E0 as <-. rewrite Nat.add_0_r in Hn.
          specialize (IH (Datatypes.S off)). assert (fold_right Nat.add 0 (map g (seq (Datatypes.S off) (length ks'))) <= fold_right Nat.add 0 ks').
          { apply IH. intros i Hi. destruct (HG (Datatypes.S i)) as (n & E0 & Hn'); [cbn; lia|]. exists n. split; [exact E0|]. now rewrite Nat.add_succ_comm. }
          lia. }
        apply (G2 (fun i => length (of_task i (sy_hist y))) ks 0). exact G.
    Qed.

    Lemma hist_values : forall evs y, careful sem (system_new s0 tasks) evs y ->
      map (fun e => snd (snd e)) (sy_hist y) = map (fun v => ans (Ok (inl v))) (firstn (length (sy_hist y)) vs) /\
      exists k', R (sy_base y) (concat (map enc (skipn (length (sy_hist y)) vs)) ++ more) l k'.
    Proof.
      intros evs y H. destruct (@hist_facts _ _ H) as (H1 & H2 & _). destruct (careful_ok H (sys_ok_new sem s0 tasks)) as (E0 & _).
      destruct (@produce_values (length (sy_hist y)) vs more s0 l k HR0) as (s' & k' & E2 & HR); [lia|].
      assert (EQ : map (fun e => call_alone sem (fst (snd e))) (sy_hist y) = repeat (call_alone sem (l0, c0)) (length (sy_hist y))).
      { clear - H1. induction H1 as [|e h He HF IH]; cbn; [reflexivity|]. now rewrite He, IH. }
      rewrite EQ, E2 in E0. injection E0 as E3 E4. subst s'. split; [now rewrite E3|eauto].
    Qed.

    Lemma step_returns : forall evs y ev, careful sem (system_new s0 tasks) evs y -> exists y', sys_step sem ev y = Ret y'.
    Proof.
      intros evs y ev H. destruct (@hist_values _ _ H) as (_ & k' & HR).
      destruct (sys_step sem ev y) as [y'| |] eqn:E1; [eauto| |]; exfalso;
      (destruct (@sys_step_fails _ _ _ _ sem s0 tasks y ev (careful_ok H (sys_ok_new _ s0 tasks))) as (i & t & a & c & p & _ & Ht & Hn & E2);
       [rewrite E1; discriminate|];
       destruct (@task_facts _ _ _ _ H Ht) as (n & _ & _ & HF & _); unfold pending in HF; rewrite Hn in HF; apply Forall_app in HF as [_ HF];
       inversion HF as [|? ? Hac _]; subst; rewrite <- Hac in E2; destruct (produce_returns HR) as (s' & x & E3);
       rewrite alone_is, E3 in E2; exact (E2 _ _ eq_refl)).
    Qed.

    Lemma fair_decoders : forall sched (value : X -> list V), (forall v, value (ans (Ok (inl v))) = [v]) ->
      list_sum ks = length vs -> fair (length ks) (fun n => Poll (sched n)) ->
      exists n y order k', sys_run sem (before (fun n => Poll (sched n)) n) (system_new s0 tasks) = Ret y /\ all_done y /\
        map snd order = vs /\ R (sy_shared y) more l k' /\
        forall i n, nth_error ks i = Some n -> exists t, nth_error (sy_tasks y) i = Some t /\
          flat_map (fun e => match snd e with Some x => value x | None => [] end) (tk_log t) = of_task i order /\ length (of_task i order) = n.
    Proof.
      intros sched value Hv Hsum HF.
      assert (HF' : fair (length (sy_tasks (system_new (X := X) s0 tasks))) (fun n => Poll (sched n))) by (cbn; unfold tasks; rewrite !map_length; exact HF).
      destruct (@fair_done _ _ _ _ sem (system_new s0 tasks) (fun n => Poll (sched n)) (@start_right _ _ _ _ sem s0 tasks) HF') as (n & [(y & Hy & HD)|HN]).
      2:{ destruct (polls_succeed step_returns (careful_nil _ _) (fair_polls sched n)) as [y' E1]. destruct (HN _ E1). }
      pose proof (@polls_careful _ _ _ _ sem _ _ _ (fair_polls sched n) Hy) as Hc. destruct (@start_right _ _ _ _ sem _ _ _ _ Hy) as [HR Hlen].
      destruct (@hist_facts _ _ Hc) as (H1 & H2 & H3 & H4). destruct (@hist_values _ _ Hc) as (H5 & k' & HR5).
      pose proof (@polls_log _ _ _ _ sem _ _ _ (fair_polls sched n) Hy (@log_new _ _ _ _ _ _)) as HL. rewrite Forall_forall in HL.
      pose proof HD as HD'. unfold all_done in HD'. rewrite Forall_forall in HD'.
      assert (HT : forall i m, nth_error ks i = Some m -> exists t, nth_error (sy_tasks y) i = Some t /\
        map (fun e => Some (snd e)) (of_task i (sy_hist y)) = map snd (tk_log t) /\ length (of_task i (sy_hist y)) = m).
      { intros i m Hm. assert (i < length ks) by (apply nth_error_Some; congruence).
        destruct (nth_error (sy_tasks y) i) as [t|] eqn:Ht; [|apply nth_error_None in Ht; lia].
        exists t. split; [reflexivity|]. destruct (@task_facts _ _ _ _ Hc Ht) as (m' & Em & _ & T2 & _ & _ & T5 & T6). rewrite Hm in Em. injection Em as <-.
        destruct (HD' t (nth_error_In _ _ Ht)) as [N1 N2]. specialize (HL t (nth_error_In _ _ Ht)).
        assert (EQ : map (fun e => Some (snd e)) (of_task i (sy_hist y)) = map snd (tk_log t)).
        { rewrite T6. apply Forall_app in T2 as [T2 _]. clear - HL T2 Hsem. unfold locked_calls. induction HL as [|[[a c] [x|]] log Hx HL IH]; cbn in *; [reflexivity| |congruence].
          inversion T2 as [|? ? Hac T2']; subst. injection Hac as <- <-. rewrite Hsem. cbn. now rewrite (IH T2'). }
        split; [exact EQ|]. rewrite <- (T5 ltac:(unfold pending; now rewrite N1) N2). apply (f_equal (@length _)) in EQ. rewrite !map_length in EQ. exact EQ. }
      assert (Hlen2 : length (sy_hist y) = length vs).
      { rewrite (hist_length H4), <- Hsum. clear - HT. generalize (sy_hist y) HT. clear. intros h HT.
        assert (G : forall ks' off, (forall i m, nth_error ks' i = Some m -> length (of_task (off + i) h) = m) ->
          list_sum (map (fun i => length (of_task i h)) (seq off (length ks'))) = list_sum ks').
        { unfold list_sum. induction ks' as [|a ks' IH]; intros off HG; cbn [length seq map fold_right]; [reflexivity|].
          rewrite IH; [|intros i m Hm; rewrite Nat.add_succ_comm; exact (HG (Datatypes.S i) m Hm)].
          f_equal. rewrite <- (HG 0 a eq_refl). now rewrite Nat.add_0_r. }
        apply G. intros i m Hm. destruct (HT i m Hm) as (t & _ & _ & E0). exact E0. }
      rewrite Hlen2, firstn_all in H5. rewrite Hlen2, skipn_all in HR5. cbn in HR5.
      exists n, y, (flat_map (fun e => map (pair (fst e)) (value (snd (snd e)))) (sy_hist y)), k'. splits; auto.
      - rewrite (snd_flat_map (fun a => value (snd a))). rewrite flat_map_concat_map, map_map, <- map_map with (f := fun e => snd (snd e)), H5, map_map.
        clear - Hv. induction vs as [|v vs0 IH]; cbn; [reflexivity|]. rewrite Hv, IH. reflexivity.
      - destruct (careful_ok Hc (sys_ok_new sem s0 tasks)) as (_ & L2 & _). unfold lock_ok in L2. rewrite (done_holder HR HD) in L2. destruct L2 as [-> _]. exact HR5.
      - intros i m Hm. destruct (HT i m Hm) as (t & T1 & T2 & T3). exists t. split; [exact T1|]. rewrite (of_task_flat_map (fun a => value (snd a))). split.
        + rewrite flat_map_concat_map, <- (map_map snd (fun o => match o with Some x => value x | None => [] end)), <- T2, map_map. now rewrite flat_map_concat_map.
        + rewrite <- T3. assert (HV : forall e, In e (of_task i (sy_hist y)) -> length (value (snd e)) = 1).
          { intros e He. unfold of_task in He. apply in_map_iff in He as (e' & <- & He). apply filter_In in He as [He _].
            apply (in_map (fun e => snd (snd e))) in He. rewrite H5 in He. apply in_map_iff in He as (v & E1 & _). rewrite <- E1, Hv. reflexivity. }
          clear - HV. induction (of_task i (sy_hist y)) as [|e h IH]; cbn; [reflexivity|]. rewrite app_length, (HV e (or_introl eq_refl)), IH; [reflexivity|].
          intros e' He. apply HV. now right.
    Qed.
  End Run.
End SameCall.

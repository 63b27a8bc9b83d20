(** Proofs for ScheduleSpec.v. *)
From Coq Require Import Bool List Arith Lia.
From Verif Require Import Prelude ListFacts Traits QueueModel QueueSpec QueueProofs ScramblerModel Contracts AdaptorSpec CallsProofs ScheduleSpec.
Import ListNotations.
Set Implicit Arguments.

Lemma next_lt : forall X (ops : list X) i, 0 < length ops -> next ops i < length ops.
Proof. intros. unfold next. apply Nat.mod_upper_bound. lia. Qed.

Lemma asserted : forall X dbg b (k : outcome X) y, debug_assert dbg b k = Ret y -> k = Ret y.
Proof. intros X dbg b k y H. unfold debug_assert in H. destruct dbg, b; cbn in H; congruence. Qed.

(** ** Producer *)
Section Producer.
  Context {S T F E : Type} (dbg : bool) (P : bulk_producer S T F E) (ops : list pscr_op) (cap : nat).
  Hypothesis Ops : 0 < length ops.
  Notation state := (pscr S T F E).
  Notation view := (pview T F E).

  Definition pshows (s : state) (v : view) : Prop :=
    fixed_R cap (ps_buffer s) (pv_items v) 0 [] /\ ps_operations s = ops /\ ps_index s = pv_next v /\ ps_last s = pv_last v.

  Lemma pshows_len : forall s v, pshows s v -> ps_len s = length (pv_items v) /\ fixed_capacity (ps_buffer s) = cap /\ length (pv_items v) <= cap /\ 0 < cap.
  Proof.
    intros s v (HQ & _). split; [exact (lq_len (fixed_lawful cap) HQ)|]. destruct HQ as (H0 & H1 & _ & _ & H4 & _). splits; auto; lia.
  Qed.

  Lemma pscr_advanced : forall s s' b i, ps_operations s = ops -> ps_index s = i -> fixed_R cap (ps_buffer s) b 0 [] -> ps_last s = None ->
    pscr_advance s = Ret s' -> ps_inner s' = ps_inner s /\ pshows s' (mk_pview b None (next ops i)).
  Proof.
    intros s s' b i Ho Hi HQ Hl H. unfold pscr_advance in H. rewrite Ho, cmod_ok in H by lia. cbn [bind] in H. injection H as <-.
    split; [reflexivity|]. unfold pshows. cbn. rewrite Hi. auto.
  Qed.

  Lemma pscr_performs : forall s b i s' r, pshows s (mk_pview b None i) -> length b < cap -> pscr_perform_operation dbg P s = Ret (s', r) ->
    exists l, p_trace P (ps_inner s) l (ps_inner s') /\
    match r with
    | Ok None => exists b', pshows s' (mk_pview b' None (next ops i)) /\
        forall l' v, filled ops cap b' (next ops i) l' v -> filled ops cap b i (l ++ l') v
    | Ok (Some f) => exists b', pshows s' (mk_pview b' None i) /\ filled ops cap b i l (mk_pview b' (Some (Ok f)) i)
    | Err e => exists b', pshows s' (mk_pview b' None i) /\ filled ops cap b i l (mk_pview b' (Some (Err e)) i)
    end.
  Proof.
    intros s b i s' r HV Hlt H. destruct HV as (HQ & Ho & Hi & Hl). cbn [pv_items pv_last pv_next] in *.
    unfold pscr_perform_operation in H. apply asserted in H. unfold index in H. rewrite Ho, Hi in H.
    destruct (nth_error ops i) as [o|] eqn:En; cbn [bind] in H; [|discriminate].
    destruct o as [|n|].
    - destruct (p_produce P (ps_inner s)) as [[i1 [[x|f]|e]]| |] eqn:EP; cbn [bind] in H; try discriminate.
      + destruct (lq_enqueue (fixed_lawful cap) x HQ Hlt) as (q & EQ & HQ').
        unfold ps_with_inner in H. cbn [ps_buffer] in H. rewrite EQ in H. cbn [bind] in H. apply asserted in H.
        match type of H with (let* _ := ?o in _) = _ => destruct o as [s2| |] eqn:EA; cbn [bind] in H; try discriminate H end.
        injection H as <- <-.
        eapply pscr_advanced in EA; [|eassumption|reflexivity|eassumption|eassumption]. destruct EA as (EI & HV'). cbn in EI.
        exists [(PProduce, PAItem (Ok (inl x)))]. split; [rewrite EI; history|].
        exists (b ++ [x]). split; [rewrite <- Hi; exact HV'|]. intros l' v HF. now apply filled_item.
      + injection H as <- <-. exists [(PProduce, PAItem (Ok (inr f)))]. split; [history|].
        exists b. split; [unfold pshows; cbn; auto|]. exact (@filled_item_last T F E ops cap b i (Ok f) Hlt En).
      + injection H as <- <-. exists [(PProduce, PAItem (Err e))]. split; [history|].
        exists b. split; [unfold pshows; cbn; auto|]. exact (@filled_item_last T F E ops cap b i (Err e) Hlt En).
    - destruct (p_expose P (ps_inner s)) as [[i1 [[ys|f]|e]]| |] eqn:EP; cbn [bind] in H; try discriminate.
      + rewrite slice_to_ok in H by lia. cbn [bind] in H.
        unfold ps_with_inner in H. cbn [ps_buffer] in H.
        destruct (lawful_bulk_enqueue (fixed_lawful cap) (firstn (Nat.min (length ys) n) ys) HQ) as (q & m & EQ & Hm1 & Hm2 & Hm3 & HQ').
        rewrite EQ in H. cbn [bind ps_with_buffer ps_inner ps_buffer ps_last ps_operations ps_index] in H.
        rewrite firstn_length in Hm1.
        assert (Hf : firstn m (firstn (Nat.min (length ys) n) ys) = firstn m ys) by (rewrite firstn_firstn; f_equal; lia).
        rewrite Hf in HQ'.
        assert (H0 : m = 0 -> n = 0 \/ ys = []).
        { intros E0. apply Hm3 in E0. destruct E0 as [E0|E0]; [lia|].
          apply (f_equal (@length T)) in E0. rewrite firstn_length in E0. cbn [length] in E0.
          destruct ys; [now right|]. left. cbn [length] in E0. lia. }
        destruct (p_consider P m i1) as [[i2 [[]|e]]| |] eqn:EC; cbn [bind] in H; try discriminate.
        * match type of H with (let* _ := ?o in _) = _ => destruct o as [s2| |] eqn:EA; cbn [bind] in H; try discriminate H end.
          injection H as <- <-.
          eapply pscr_advanced in EA; [|eassumption|reflexivity|eassumption|eassumption]. destruct EA as (EI & HV'). cbn in EI.
          exists [(PExpose, PASlice (Ok (inl ys))); (PConsider m, PAUnit (Ok tt))]. split; [rewrite EI; history|].
          exists (b ++ firstn m ys). split; [rewrite <- Hi; exact HV'|]. intros l' v HF.
          eapply filled_items; eauto; lia.
        * injection H as <- <-. exists [(PExpose, PASlice (Ok (inl ys))); (PConsider m, PAUnit (Err e))]. split; [history|].
          exists (b ++ firstn m ys). split; [unfold pshows; cbn; auto|]. eapply filled_items_error; eauto; lia.
      + injection H as <- <-. exists [(PExpose, PASlice (Ok (inr f)))]. split; [history|].
        exists b. split; [unfold pshows; cbn; auto|]. exact (@filled_items_last T F E ops cap b i n (Ok f) Hlt En).
      + injection H as <- <-. exists [(PExpose, PASlice (Err e))]. split; [history|].
        exists b. split; [unfold pshows; cbn; auto|]. exact (@filled_items_last T F E ops cap b i n (Err e) Hlt En).
    - destruct (p_slurp P (ps_inner s)) as [[i1 [[]|e]]| |] eqn:EP; cbn [bind] in H; try discriminate.
      + match type of H with (let* _ := ?o in _) = _ => destruct o as [s2| |] eqn:EA; cbn [bind] in H; try discriminate H end.
        injection H as <- <-.
        eapply pscr_advanced in EA; [|eassumption|reflexivity|eassumption|eassumption]. destruct EA as (EI & HV'). cbn in EI.
        exists [(PSlurp, PAUnit (Ok tt))]. split; [rewrite EI; history|].
        exists b. split; [cbn in HV'; rewrite <- Hi; exact HV'|]. intros l' v HF. now apply filled_slurp.
      + injection H as <- <-. exists [(PSlurp, PAUnit (Err e))]. split; [history|].
        exists b. split; [unfold pshows; cbn; auto|]. now apply filled_slurp_error.
  Qed.

  Lemma pscr_fill_calls : forall fuel s v s', pshows s v -> pscr_fill_loop dbg fuel P s = Ret s' ->
    exists l v', p_trace P (ps_inner s) l (ps_inner s') /\ fills ops cap v l v' /\ pshows s' v'.
  Proof.
    induction fuel as [|fuel IH]; intros s v s' HV H; cbn [pscr_fill_loop] in H; [discriminate|].
    destruct (pshows_len HV) as (HL & HC & Hle & _).
    destruct v as [b la i]. pose proof HV as (HQ & Ho & Hi & Hl). cbn [pv_items pv_last pv_next] in *.
    rewrite Hl in H. destruct la as [r|].
    - injection H as <-. exists [], (mk_pview b (Some r) i). splits; [constructor|now unfold fills|exact HV].
    - rewrite HL, HC in H. destruct (Nat.ltb_spec (length b) cap) as [Hlt|Hge].
      2: { injection H as <-. exists [], (mk_pview b None i). splits; [constructor| |exact HV]. unfold fills. cbn. apply filled_full. lia. }
      destruct (pscr_perform_operation dbg P s) as [[s1 r]| |] eqn:E1; cbn [bind] in H; try discriminate.
      destruct (pscr_performs HV Hlt E1) as (l & HT & HM).
      assert (stop : forall b' la, pshows s1 (mk_pview b' None i) -> filled ops cap b i l (mk_pview b' (Some la) i) ->
        pscr_fill_loop dbg fuel P (ps_with_last (Some la) s1) = Ret s' ->
        exists l v', p_trace P (ps_inner s) l (ps_inner s') /\ fills ops cap (mk_pview b None i) l v' /\ pshows s' v').
      { intros b' la (HQ' & Ho' & Hi' & _) HF HR. destruct fuel as [|fuel']; [discriminate|]. cbn in HR. injection HR as <-.
        exists l, (mk_pview b' (Some la) i). splits; [exact HT|exact HF|]. unfold pshows. cbn in *. auto. }
      destruct r as [[f|]|e].
      + destruct HM as (b' & HV' & HF). exact (stop _ _ HV' HF H).
      + destruct HM as (b' & HV' & HF). destruct (IH _ _ _ HV' H) as (l' & v' & HT' & HF' & HV2). cbn in HF'.
        exists (l ++ l'), v'. splits; [eapply p_trace_app; eauto|exact (HF _ _ HF')|exact HV2].
      + destruct HM as (b' & HV' & HF). exact (stop _ _ HV' HF H).
  Qed.

  (** After reading ahead there is an item, or the end is known. *)
  Lemma filled_some : forall b i l (v : view), 0 < cap -> filled ops cap b i l v -> pv_items v <> [] \/ pv_last v <> None.
  Proof.
    intros b i l v Hc H. induction H; cbn; auto; try (right; discriminate).
    left. destruct b; [cbn in *; lia|discriminate].
  Qed.

  Lemma pscr_filled_calls : forall fuel s v s' r, pshows s v -> pscr_fill_queue dbg fuel P s = Ret (s', r) ->
    exists l w, p_trace P (ps_inner s) l (ps_inner s') /\ fills ops cap v l w /\
    match pv_items w with
    | [] => exists x, r = Some x /\ pv_last w = Some x /\ pshows s' (mk_pview [] None (pv_next w))
    | _ => r = None /\ pshows s' w
    end.
  Proof.
    intros fuel s v s' r HV H. unfold pscr_fill_queue in H.
    destruct (pscr_fill_loop dbg fuel P s) as [s1| |] eqn:E1; cbn [bind] in H; try discriminate.
    destruct (pscr_fill_calls _ HV E1) as (l & w & HT & HF & HW). destruct (pshows_len HW) as (HL & _ & _ & H0).
    rewrite HL in H. exists l, w. destruct w as [[|x b] la i]; cbn [pv_items length Nat.eqb] in *.
    - injection H as <- <-. splits; [exact HT|exact HF|]. pose proof HW as (HQ & Ho & Hi & Hl). cbn in Hl.
      assert (pv_last v = None \/ exists r, pv_last v = Some r) as [Hv|(r & Hv)] by (destruct (pv_last v); eauto).
      + unfold fills in HF. rewrite Hv in HF. pose proof (filled_some H0 HF) as [C|C]; cbn in C; [congruence|].
        destruct la as [x|]; [|congruence]. exists x. splits; auto. unfold pshows. cbn. auto.
      + unfold fills in HF. rewrite Hv in HF. destruct HF as (_ & HF). subst v. cbn in Hv. subst la. exists r. splits; auto.
        unfold pshows. cbn. auto.
    - injection H as <- <-. splits; auto.
  Qed.

  Lemma pshows_buffer : forall s b la i q b', pshows s (mk_pview b la i) -> fixed_R cap q b' 0 [] -> pshows (ps_with_buffer q s) (mk_pview b' la i).
  Proof. intros s b la i q b' (_ & Ho & Hi & Hl) HQ. unfold pshows. cbn in *. auto. Qed.

  Lemma pscr_slurp_calls : forall s w s' r, pshows s w -> pscr_slurp_inner P s = Ret (s', r) ->
    exists r', p_trace P (ps_inner s) [(PSlurp, PAUnit r')] (ps_inner s') /\
    match r', pv_items w with
    | Ok _, _ => r = Ok tt /\ pshows s' w
    | Err e, [] => r = Err e /\ pshows s' w
    | Err e, b => r = Ok tt /\ pshows s' (mk_pview b (Some (Err e)) (pv_next w))
    end.
  Proof.
    intros s w s' r HV H. unfold pscr_slurp_inner in H. destruct (pshows_len HV) as (HL & _). pose proof HV as (HQ & Ho & Hi & Hl).
    destruct (p_slurp P (ps_inner s)) as [[i1 [[]|e]]| |] eqn:EP; cbn [bind] in H; try discriminate.
    - injection H as <- <-. exists (Ok tt). split; [history|]. split; [reflexivity|]. unfold pshows. cbn. auto.
    - exists (Err e). unfold ps_len, ps_with_inner in H. cbn [ps_buffer] in H. fold (ps_len s) in H. rewrite HL in H.
      destruct w as [[|x b] la i]; cbn [pv_items length Nat.eqb pv_next pv_last] in *; injection H as <- <-.
      all: split; [history|]; split; [reflexivity|]; unfold pshows; cbn; auto.
  Qed.

  Lemma pscr_expose_calls : forall fuel s v s' r, pshows s v -> pscr_expose dbg fuel P s = Ret (s', r) ->
    exists l w, p_trace P (ps_inner s) l (ps_inner s') /\ fills ops cap v l w /\
    match pv_items w with
    | [] => exists x, r = stopped x /\ pv_last w = Some x /\ pshows s' (mk_pview [] None (pv_next w))
    | b => exists ys rest, ys <> [] /\ b = ys ++ rest /\ r = Ok (inl ys) /\ pshows s' w
    end.
  Proof.
    intros fuel s v s' r HV HP. unfold pscr_expose in HP.
    destruct (pscr_fill_queue dbg fuel P s) as [[s1 r1]| |] eqn:E1; cbn [bind] in HP; try discriminate.
    destruct (pscr_filled_calls _ HV E1) as (l & w & HT & HF & HM). exists l, w.
    destruct w as [[|y b] la i]; cbn [pv_items pv_last pv_next] in *.
    - destruct HM as (x & -> & -> & HM). destruct x as [f|e]; injection HP as <- <-; splits; auto.
      + exists (Ok f). auto.
      + exists (Err e). auto.
    - destruct HM as (-> & HM). pose proof HM as (HQ & _). cbn [pv_items] in HQ.
      destruct (lq_expose_items (fixed_lawful cap) HQ) as (q & ys & rest & EQ & Hne & Heq & HQ'); [discriminate|]. rewrite EQ in HP.
      cbn [bind expect] in HP. injection HP as <- <-. splits; [exact HT|exact HF|].
      exists ys, rest. splits; auto. exact (pshows_buffer HM HQ').
  Qed.

  Lemma considered_fits : forall q b n q', fixed_R cap q b 0 [] -> q_consider_dequeued (fixed_queue T) n q = Ret q' -> n <= length b.
  Proof.
    intros q b n q' HQ H. cbn in H. unfold fixed_consider_dequeued in H. destruct HQ as (H0 & Hc & _ & Ha & _).
    rewrite Hc, cmod_ok in H by lia. cbn [bind] in H. unfold csub in H. rewrite Ha in H.
    destruct (length b <? n) eqn:El; [discriminate|]. apply Nat.ltb_ge in El. exact El.
  Qed.

  Lemma pscr_consider_calls : forall s v n s' r, pshows s v -> pscr_consider n s = Ret (s', r) ->
    ps_inner s' = ps_inner s /\ n <= length (pv_items v) /\ r = Ok tt /\ pshows s' (keeps (skipn n (pv_items v)) v).
  Proof.
    intros s v n s' r HV H. unfold pscr_consider in H. pose proof HV as (HQ & _).
    destruct (q_consider_dequeued (fixed_queue T) n (ps_buffer s)) as [q| |] eqn:EQ; cbn [bind] in H; try discriminate.
    injection H as <- <-. pose proof (considered_fits _ HQ EQ) as Hn.
    destruct (lq_consider_dequeued (fixed_lawful cap) n HQ Hn) as (q2 & EQ2 & HQ'). rewrite EQ in EQ2. injection EQ2 as <-.
    splits; auto. destruct v as [b la i]. unfold keeps. cbn [pv_items pv_last pv_next] in *. exact (pshows_buffer HV HQ').
  Qed.

  Lemma pscr_do_calls : forall fuel o s v s' a, pshows s v -> p_do (pscr_producer dbg fuel P) o s = Ret (s', a) ->
    exists l v', p_trace P (ps_inner s) l (ps_inner s') /\ pscr_call ops cap v o l a v' /\ pshows s' v'.
  Proof.
    intros fuel o s v s' a HV H.
    destruct o as [| | |n|buf]; cbn [p_do] in H.
    - destruct (p_produce (pscr_producer dbg fuel P) s) as [[s2 r2]| |] eqn:HP; cbn [bind] in H; try discriminate. injection H as <- <-.
      cbn in HP. unfold pscr_produce in HP.
      destruct (pscr_fill_queue dbg fuel P s) as [[s1 r1]| |] eqn:E1; cbn [bind] in HP; try discriminate.
      destruct (pscr_filled_calls _ HV E1) as (l & w & HT & HF & HM). exists l.
      destruct w as [[|y b] la i]; cbn [pv_items pv_last pv_next] in *.
      + destruct HM as (r & -> & -> & HM). exists (mk_pview [] None i).
        destruct r as [f|e]; injection HP as <- <-; splits; auto; cbn.
        * exists (mk_pview [] (Some (Ok f)) i). splits; [exact HF|]. exists (Ok f). split; [now split|reflexivity].
        * exists (mk_pview [] (Some (Err e)) i). splits; [exact HF|]. exists (Err e). split; [now split|reflexivity].
      + destruct HM as (-> & HM). pose proof HM as (HQ & _). cbn [pv_items] in HQ.
        destruct (lq_dequeue (fixed_lawful cap) HQ) as (q & EQ & HQ'). rewrite EQ in HP. cbn [bind expect] in HP. injection HP as <- <-.
        exists (mk_pview b la i). splits; [exact HT| |exact (pshows_buffer HM HQ')].
        cbn. exists (mk_pview (y :: b) la i). splits; [exact HF|]. now split.
    - destruct (p_slurp (pscr_producer dbg fuel P) s) as [[s2 r2]| |] eqn:HP; cbn [bind] in H; try discriminate. injection H as <- <-.
      cbn in HP. unfold pscr_slurp in HP.
      destruct (pscr_fill_queue dbg fuel P s) as [[s1 r1]| |] eqn:E1; cbn [bind] in HP; try discriminate.
      destruct (pscr_filled_calls _ HV E1) as (l & w & HT & HF & HM).
      assert (go : forall s0 v0, ps_inner s0 = ps_inner s1 -> pscr_slurp_inner P s0 = Ret (s2, r2) -> pshows s0 v0 -> v0 = w ->
        (pv_items w = [] -> exists f, pv_last w = Some (Ok f)) ->
        exists l v', p_trace P (ps_inner s) l (ps_inner s2) /\ pscr_call ops cap v PSlurp l (PAUnit r2) v' /\ pshows s2 v').
      { intros s0 v0 EI HS HV0 -> Hend. destruct (pscr_slurp_calls HV0 HS) as (r' & HT' & HR). rewrite EI in HT'.
        exists (l ++ [(PSlurp, PAUnit r')]). destruct w as [[|y b] la i]; cbn [pv_items pv_last pv_next] in *.
        - destruct (Hend eq_refl) as (f & ->). exists (mk_pview [] (Some (Ok f)) i).
          destruct r' as [[]|e]; destruct HR as (-> & HR); splits; try (eapply p_trace_app; eassumption); try exact HR; cbn.
          + exists (mk_pview [] (Some (Ok f)) i), l, [(PSlurp, PAUnit (Ok tt))]. splits; [reflexivity|exact HF|]. exists (Ok tt). auto.
          + exists (mk_pview [] (Some (Ok f)) i), l, [(PSlurp, PAUnit (Err e))]. splits; [reflexivity|exact HF|]. exists (Err e). auto.
        - destruct r' as [[]|e]; destruct HR as (-> & HR).
          + exists (mk_pview (y :: b) la i). splits; try (eapply p_trace_app; eassumption); try exact HR. cbn.
            exists (mk_pview (y :: b) la i), l, [(PSlurp, PAUnit (Ok tt))]. splits; [reflexivity|exact HF|]. exists (Ok tt). auto.
          + exists (mk_pview (y :: b) (Some (Err e)) i). splits; try (eapply p_trace_app; eassumption); try exact HR. cbn.
            exists (mk_pview (y :: b) la i), l, [(PSlurp, PAUnit (Err e))]. splits; [reflexivity|exact HF|]. exists (Err e). auto. }
      destruct w as [[|y b] la i]; cbn [pv_items pv_last pv_next] in *.
      + destruct HM as (r & -> & -> & HM). destruct r as [f|e].
        * eapply go; [|exact HP| |reflexivity|]; [reflexivity| |eauto].
          destruct HM as (HQ & Ho & Hi & _). unfold pshows. cbn in *. auto.
        * injection HP as <- <-. exists (l ++ []), (mk_pview [] None i). rewrite app_nil_r. splits; auto. cbn.
          exists (mk_pview [] (Some (Err e)) i), l, []. rewrite app_nil_r. splits; [reflexivity|exact HF|]. cbn. auto.
      + destruct HM as (-> & HM). eapply go; [|exact HP|exact HM|reflexivity|]; [reflexivity|discriminate].
    - destruct (p_expose (pscr_producer dbg fuel P) s) as [[s2 r2]| |] eqn:HP; cbn [bind] in H; try discriminate. injection H as <- <-.
      cbn in HP. destruct (pscr_expose_calls _ HV HP) as (l & w & HT & HF & HM). exists l.
      destruct w as [[|y b] la i]; cbn [pv_items pv_last pv_next] in *.
      + destruct HM as (r & -> & -> & HM). exists (mk_pview [] None i). splits; auto. cbn.
        exists (mk_pview [] (Some r) i). splits; [exact HF|]. exists r. split; [now split|reflexivity].
      + destruct HM as (ys & rest & Hne & Heq & -> & HM). exists (mk_pview (y :: b) la i). splits; auto. cbn.
        exists (mk_pview (y :: b) la i). splits; [exact HF|]. exists ys, rest. auto.
    - destruct (p_consider (pscr_producer dbg fuel P) n s) as [[s2 r2]| |] eqn:HP; cbn [bind] in H; try discriminate. injection H as <- <-.
      cbn in HP. destruct (pscr_consider_calls _ HV HP) as (EI & Hn & -> & HM). eexists [], _. splits; [rewrite EI; constructor| |exact HM].
      cbn. auto.
    - destruct (p_bulk_produce (pscr_producer dbg fuel P) buf s) as [[s2 [buf2 r2]]| |] eqn:HP; cbn [bind] in H; try discriminate. injection H as <- <-.
      cbn in HP. unfold default_bulk_produce in HP.
      destruct (pscr_expose dbg fuel P s) as [[s1 r1]| |] eqn:E1; cbn [bind] in HP; try discriminate.
      destruct (pscr_expose_calls _ HV E1) as (l & w & HT & HF & HM). exists l.
      destruct w as [[|y b] la i]; cbn [pv_items pv_last pv_next] in *.
      + destruct HM as (r & -> & -> & HM). exists (mk_pview [] None i).
        assert (ER : s2 = s1 /\ buf2 = buf /\ r2 = stopped r) by (destruct r; injection HP as <- <- <-; auto). destruct ER as (-> & -> & ->).
        splits; auto. cbn. exists (mk_pview [] (Some r) i). splits; [exact HF|]. exists r. split; [now split|reflexivity].
      + destruct HM as (ys & rest & Hne & Heq & -> & HM). cbn [bind] in HP.
        set (m := Nat.min (length ys) (length buf)) in *.
        destruct (pscr_consider m s1) as [[s3 r3]| |] eqn:EC; cbn [bind] in HP; try discriminate.
        destruct (pscr_consider_calls _ HM EC) as (EI & Hn & -> & HM'). injection HP as <- <- <-.
        eexists. splits; [rewrite EI; exact HT| |exact HM']. cbn [pscr_call].
        exists (mk_pview (y :: b) la i). splits; [exact HF|]. cbn [pv_items]. exists m. cbn [pv_items] in Hn.
        splits; [subst m; lia|exact Hn| | |reflexivity].
        * intros Hm. destruct buf; [reflexivity|]. destruct ys; [congruence|]. cbn in m. lia.
        * rewrite Heq, firstn_app. replace (m - length ys) with 0 by (subst m; lia). cbn [firstn]. now rewrite app_nil_r.
  Qed.

  Lemma pscr_history_calls : forall fuel s lo s', p_trace (pscr_producer dbg fuel P) s lo s' -> forall v, pshows s v ->
    exists l v', p_trace P (ps_inner s) l (ps_inner s') /\ pscr_calls ops cap v lo l v' /\ pshows s' v'.
  Proof.
    intros fuel s lo s' H. induction H as [s|s o s1 a h s' HD HT IH]; intros v HV.
    - exists [], v. splits; [constructor|constructor|exact HV].
    - destruct (pscr_do_calls _ _ HV HD) as (l & v1 & HT1 & HC & HV1). destruct (IH _ HV1) as (l' & v' & HT2 & HCs & HV').
      exists (l ++ l'), v'. splits; [eapply p_trace_app; eassumption|econstructor; eassumption|exact HV'].
  Qed.
End Producer.

Lemma pscr_progress : forall ops, (if pscr_make_progress ops then ops else ops ++ [ScProduce]) = all_producer_ops ops.
Proof.
  intros ops. unfold all_producer_ops.
  assert (H : pscr_make_progress ops = negb (forallb (fun o => match o with ScSlurp => true | _ => false end) ops)).
  { induction ops as [|[] ops IH]; cbn; auto. }
  rewrite H. destruct (forallb _ _); reflexivity.
Qed.

Lemma all_producer_ops_some : forall ops, 0 < length (all_producer_ops ops).
Proof. intros [|[] ops]; unfold all_producer_ops; cbn; try lia. destruct (forallb _ _); cbn; lia. Qed.

Lemma pscr_new_calls : forall S T F E dbg (P : bulk_producer S T F E) x0 s ops cap fuel lo st, 0 < cap ->
  p_trace (pscr_producer dbg fuel P) (pscr_new_with_capacity x0 s ops cap) lo st ->
  exists l v, p_trace P s l (ps_inner st) /\ pscr_calls (all_producer_ops ops) cap (mk_pview [] None 0) lo l v.
Proof.
  intros S T F E dbg P x0 s ops cap fuel lo st Hc H.
  assert (HV : pshows (all_producer_ops ops) cap (@pscr_new_with_capacity S T F E x0 s ops cap) (mk_pview [] None 0)).
  { unfold pshows, pscr_new_with_capacity. cbn. splits; auto; [|apply pscr_progress]. now apply fixed_new_R. }
  destruct (pscr_history_calls (all_producer_ops_some ops) H HV) as (l & v & HT & HC & _). eauto.
Qed.

(** ** Consumer *)
Section Consumer.
  Context {S T F E : Type} (dbg : bool) (x0 : T) (C : bulk_consumer S T F E) (ops : list cscr_op) (cap : nat).
  Hypothesis Ops : 0 < length ops.
  Notation state := (cscr S T).

  Definition cshows (s : state) (v : cview T) (kw : nat * list T) : Prop :=
    fixed_R cap (cs_buffer s) (cv_items v) (fst kw) (snd kw) /\ cs_operations s = ops /\ cs_index s = cv_next v.

  Lemma cshows_len : forall s v kw, cshows s v kw -> cs_len s = length (cv_items v) /\ fixed_capacity (cs_buffer s) = cap /\ length (cv_items v) <= cap /\ 0 < cap.
  Proof.
    intros s v kw (HQ & _). split; [exact (lq_len (fixed_lawful cap) HQ)|]. destruct HQ as (H0 & H1 & _ & _ & H4 & _). splits; auto; lia.
  Qed.

  Lemma cscr_advanced : forall s s' b i kw, cs_operations s = ops -> cs_index s = i -> fixed_R cap (cs_buffer s) b (fst kw) (snd kw) ->
    cscr_advance s = Ret s' -> cs_inner s' = cs_inner s /\ cshows s' (mk_cview b (next ops i)) kw.
  Proof.
    intros s s' b i kw Ho Hi HQ H. unfold cscr_advance in H. rewrite Ho, cmod_ok in H by lia. cbn [bind] in H. injection H as <-.
    split; [reflexivity|]. unfold cshows. cbn. rewrite Hi. auto.
  Qed.

  Lemma cscr_performs : forall s b i kw s' r, cshows s (mk_cview b i) kw -> b <> [] -> cscr_perform_operation dbg x0 C s = Ret (s', r) ->
    exists l, c_trace C (cs_inner s) l (cs_inner s') /\
    match r with
    | Ok _ => exists b', cshows s' (mk_cview b' (next ops i)) kw /\
        forall l' r v, drained ops b' (next ops i) l' r v -> drained ops b i (l ++ l') r v
    | Err e => exists b', cshows s' (mk_cview b' i) kw /\ drained ops b i l (Err e) (mk_cview b' i)
    end.
  Proof.
    intros s b i kw s' r HV Hne H. destruct HV as (HQ & Ho & Hi). cbn [cv_items cv_next] in *.
    unfold cscr_perform_operation in H. apply asserted in H. unfold index in H. rewrite Ho, Hi in H.
    destruct (nth_error ops i) as [o|] eqn:En; cbn [bind] in H; [|discriminate].
    destruct o as [|n|].
    - destruct b as [|x b]; [congruence|]. destruct (lq_dequeue (fixed_lawful cap) HQ) as (q & EQ & HQ'). rewrite EQ in H. cbn [bind expect] in H.
      unfold cs_with_buffer in H. cbn [cs_inner] in H.
      destruct (c_consume C x (cs_inner s)) as [[i1 [[]|e]]| |] eqn:EP; cbn [bind] in H; try discriminate.
      + match type of H with (let* _ := ?o in _) = _ => destruct o as [s2| |] eqn:EA; cbn [bind] in H; try discriminate H end.
        injection H as <- <-.
        eapply cscr_advanced in EA; [|eassumption|reflexivity|eassumption]. destruct EA as (EI & HV'). cbn in EI.
        exists [(CConsume x, CAUnit (Ok tt))]. split; [rewrite EI; history|].
        exists b. split; [rewrite <- Hi; exact HV'|]. intros l' r v HF. now apply drained_item.
      + injection H as <- <-. exists [(CConsume x, CAUnit (Err e))]. split; [history|].
        exists b. split; [unfold cshows; cbn; auto|]. now apply drained_item_error.
    - destruct (c_expose C (cs_inner s)) as [[i1 [k|e]]| |] eqn:EP; cbn [bind] in H; try discriminate.
      + unfold cs_with_inner in H. cbn [cs_buffer] in H.
        destruct (lawful_bulk_dequeue (fixed_lawful cap) (repeat x0 (Nat.min k n)) HQ) as (q & m & EQ & Hm1 & Hm2 & Hm3 & HQ').
        rewrite EQ in H. cbn [bind cs_with_buffer cs_inner cs_buffer cs_operations cs_index] in H.
        rewrite repeat_length in Hm1.
        assert (Hf : firstn m (firstn m b ++ skipn m (repeat x0 (Nat.min k n))) = firstn m b).
        { rewrite firstn_app, firstn_length, Nat.min_l by lia. rewrite Nat.sub_diag. cbn [firstn]. rewrite app_nil_r. rewrite firstn_firstn. f_equal. lia. }
        rewrite Hf in H.
        assert (H0 : m = 0 -> n = 0 \/ k = 0).
        { intros E0. apply Hm3 in E0. destruct E0 as [E0|E0]; [congruence|].
          apply (f_equal (@length T)) in E0. rewrite repeat_length in E0. cbn [length] in E0. lia. }
        destruct (c_consume_slots C m (c_write C (firstn m b) i1)) as [[i2 [[]|e]]| |] eqn:EC; cbn [bind] in H; try discriminate.
        * match type of H with (let* _ := ?o in _) = _ => destruct o as [s2| |] eqn:EA; cbn [bind] in H; try discriminate H end.
          injection H as <- <-.
          eapply cscr_advanced in EA; [|eassumption|reflexivity|eassumption]. destruct EA as (EI & HV'). cbn in EI.
          exists [(CExpose, CASlots (Ok k)); (CWrite (firstn m b), CANone); (CConsumeSlots m, CAUnit (Ok tt))]. split; [rewrite EI; history|].
          exists (skipn m b). split; [rewrite <- Hi; exact HV'|]. intros l' r v HF.
          eapply drained_slots; eauto; lia.
        * injection H as <- <-. exists [(CExpose, CASlots (Ok k)); (CWrite (firstn m b), CANone); (CConsumeSlots m, CAUnit (Err e))]. split; [history|].
          exists (skipn m b). split; [unfold cshows; cbn; auto|]. eapply drained_slots_error; eauto; lia.
      + injection H as <- <-. exists [(CExpose, CASlots (Err e))]. split; [history|].
        exists b. split; [unfold cshows; cbn; auto|]. eapply drained_expose_error; eauto.
    - destruct (c_flush C (cs_inner s)) as [[i1 [[]|e]]| |] eqn:EP; cbn [bind] in H; try discriminate.
      + match type of H with (let* _ := ?o in _) = _ => destruct o as [s2| |] eqn:EA; cbn [bind] in H; try discriminate H end.
        injection H as <- <-.
        eapply cscr_advanced in EA; [|eassumption|reflexivity|eassumption]. destruct EA as (EI & HV'). cbn in EI.
        exists [(CFlush, CAUnit (Ok tt))]. split; [rewrite EI; history|].
        exists b. split; [cbn in HV'; rewrite <- Hi; exact HV'|]. intros l' r v HF. now apply drained_flush.
      + injection H as <- <-. exists [(CFlush, CAUnit (Err e))]. split; [history|].
        exists b. split; [unfold cshows; cbn; auto|]. now apply drained_flush_error.
  Qed.

  Lemma cscr_drain_calls : forall fuel s v kw s' r, cshows s v kw -> cscr_drain dbg x0 fuel C s = Ret (s', r) ->
    exists l v', c_trace C (cs_inner s) l (cs_inner s') /\ drained ops (cv_items v) (cv_next v) l r v' /\ cshows s' v' kw.
  Proof.
    induction fuel as [|fuel IH]; intros s v kw s' r HV H; cbn [cscr_drain] in H; [discriminate|].
    destruct (cshows_len HV) as (HL & _). destruct v as [b i]. cbn [cv_items cv_next] in *. rewrite HL in H.
    destruct b as [|x b].
    - cbn [length Nat.ltb Nat.leb] in H. injection H as <- <-. exists [], (mk_cview [] i). splits; [constructor|constructor|exact HV].
    - cbn [length] in H. change (0 <? Datatypes.S (length b)) with true in H. cbn iota in H.
      destruct (cscr_perform_operation dbg x0 C s) as [[s1 r1]| |] eqn:E1; cbn [bind] in H; try discriminate.
      destruct (cscr_performs HV ltac:(discriminate) E1) as (l & HT & HM). destruct r1 as [[]|e].
      + destruct HM as (b' & HV' & HF). destruct (IH _ _ _ _ _ HV' H) as (l' & v' & HT' & HF' & HV2). cbn in HF'.
        exists (l ++ l'), v'. splits; [eapply c_trace_app; eauto|exact (HF _ _ _ HF')|exact HV2].
      + destruct HM as (b' & HV' & HF). injection H as <- <-. exists l, (mk_cview b' i). auto.
  Qed.

  Lemma drained_empty : forall b i (l : list (cop T F * cans E)) u (v : cview T), drained ops b i l (Ok u) v -> cv_items v = [].
  Proof. intros b i l u v H. remember (Ok u) as r eqn:Er. induction H; try discriminate Er; auto. Qed.

  Lemma cshows_forget : forall s v kw, cshows s v kw -> cshows s v (0, []).
  Proof. intros s v kw (HQ & H). split; [exact (lq_forget (fixed_lawful cap) HQ)|exact H]. Qed.
  Lemma cshows_buffer : forall s b i kw q b' kw', cshows s (mk_cview b i) kw -> fixed_R cap q b' (fst kw') (snd kw') -> cshows (cs_with_buffer q s) (mk_cview b' i) kw'.
  Proof. intros s b i kw q b' kw' (_ & Ho & Hi) HQ. unfold cshows. cbn in *. auto. Qed.
  Lemma cshows_inner : forall s v kw i, cshows s v kw -> cshows (cs_with_inner i s) v kw.
  Proof. intros s v kw i H. exact H. Qed.

  Lemma cscr_expose_calls : forall fuel s v kw s' r, cshows s v kw -> cscr_expose dbg x0 fuel C s = Ret (s', r) ->
    exists l r' v', c_trace C (cs_inner s) l (cs_inner s') /\ makes_room ops cap v l r' v' /\
    match r' with
    | Ok _ => exists k, r = Ok k /\ 1 <= k /\ length (cv_items v') + k <= cap /\ cshows s' v' (k, [])
    | Err e => r = Err e /\ cshows s' v' kw
    end.
  Proof.
    intros fuel s v kw s' r HV H. unfold cscr_expose in H. destruct (cshows_len HV) as (HL & HC & Hle & H0). rewrite HL, HC in H.
    unfold makes_room. destruct (Nat.ltb_spec (length (cv_items v)) cap) as [Hlt|Hge].
    - pose proof HV as (HQ & _). destruct (lq_expose_slots (fixed_lawful cap) HQ Hlt) as (q & n & EQ & Hn1 & Hn2 & HQ').
      rewrite EQ in H. cbn [bind expect] in H. injection H as <- <-.
      exists [], (Ok tt), v. splits; auto; [constructor|]. exists n. splits; auto. destruct v as [b i]. exact (cshows_buffer (n, []) HV HQ').
    - destruct (cscr_drain dbg x0 fuel C s) as [[s1 r1]| |] eqn:E1; cbn [bind] in H; try discriminate.
      destruct (cscr_drain_calls _ HV E1) as (l & v' & HT & HD & HV'). destruct r1 as [[]|e].
      + pose proof (drained_empty HD) as He. pose proof HV' as (HQ & _). rewrite He in HQ.
        destruct (lq_expose_slots (fixed_lawful cap) HQ) as (q & n & EQ & Hn1 & Hn2 & HQ'); [cbn; lia|].
        rewrite EQ in H. cbn [bind expect] in H. injection H as <- <-.
        exists l, (Ok tt), v'. splits; auto. exists n. rewrite He. splits; auto.
        destruct v' as [b i]. cbn [cv_items] in He. subst b. exact (cshows_buffer (n, []) HV' HQ').
      + injection H as <- <-. exists l, (Err e), v'. auto.
  Qed.

  Lemma cscr_do_calls : forall fuel o s v kw s' a, cshows s v kw ->
    match o with CWrite ys => length ys <= fst kw | CConsumeSlots n => n <= length (snd kw) | _ => True end ->
    c_do (cscr_consumer dbg x0 fuel C) o s = Ret (s', a) ->
    exists l v', c_trace C (cs_inner s) l (cs_inner s') /\ cscr_call ops cap (snd kw) v o l a v' /\ cshows s' v' (slots_after kw o a).
  Proof.
    intros fuel o s v kw s' a HV HO H. destruct (cshows_len HV) as (HL & HC & Hle & H0).
    destruct o as [x|f| | |ys|n|buf]; cbn [c_do] in H.
    - destruct (c_consume (cscr_consumer dbg x0 fuel C) x s) as [[s2 r2]| |] eqn:HP; cbn [bind] in H; try discriminate. injection H as <- <-.
      change (cscr_consume dbg x0 fuel C x s = Ret (s2, r2)) in HP.
      unfold cscr_consume in HP. pose proof HV as (HQ & _).
      destruct (Nat.ltb_spec (length (cv_items v)) cap) as [Hlt|Hge].
      + destruct (lq_enqueue (fixed_lawful cap) x HQ Hlt) as (q & EQ & HQ'). rewrite EQ in HP. cbn [bind] in HP. injection HP as <- <-.
        exists [], (holds (cv_items v ++ [x]) v). splits; [constructor| |].
        * cbn. exists (Ok tt), v. splits; auto. unfold makes_room. now rewrite (proj2 (Nat.ltb_lt _ _) Hlt).
        * destruct v as [b i]. exact (cshows_buffer (0, []) HV HQ').
      + rewrite (lq_enqueue_full (fixed_lawful cap) x HQ ltac:(lia)) in HP. cbn [bind] in HP.
        destruct (cscr_drain dbg x0 fuel C (cs_with_buffer (cs_buffer s) s)) as [[s1 r1]| |] eqn:E1; cbn [bind] in HP; try discriminate.
        assert (Es : cs_with_buffer (cs_buffer s) s = s) by (destruct s; reflexivity). rewrite Es in E1. destruct (cscr_drain_calls _ HV E1) as (l & v' & HT & HD & HV'). destruct r1 as [[]|e].
        * pose proof (drained_empty HD) as He. pose proof HV' as (HQ2 & _). rewrite He in HQ2.
          destruct (lq_enqueue (fixed_lawful cap) x HQ2) as (q & EQ & HQ'); [cbn; lia|]. rewrite EQ in HP. cbn [bind] in HP.
          apply asserted in HP. injection HP as <- <-.
          exists l, (holds (cv_items v' ++ [x]) v'). splits; [exact HT| |].
          -- cbn. exists (Ok tt), v'. splits; auto. unfold makes_room. now rewrite (proj2 (Nat.ltb_ge _ _) Hge).
          -- rewrite He. destruct v' as [b i]. exact (cshows_buffer (0, []) HV' HQ').
        * injection HP as <- <-. exists l, v'. splits; [exact HT| |exact (cshows_forget HV')].
          cbn. exists (Err e), v'. splits; auto. unfold makes_room. now rewrite (proj2 (Nat.ltb_ge _ _) Hge).
    - destruct (c_close (cscr_consumer dbg x0 fuel C) f s) as [[s2 r2]| |] eqn:HP; cbn [bind] in H; try discriminate. injection H as <- <-.
      change (cscr_close dbg x0 fuel C f s = Ret (s2, r2)) in HP. unfold cscr_close in HP.
      destruct (cscr_drain dbg x0 fuel C s) as [[s1 r1]| |] eqn:E1; cbn [bind] in HP; try discriminate.
      destruct (cscr_drain_calls _ HV E1) as (l & v' & HT & HD & HV'). destruct r1 as [[]|e].
      + destruct (c_close C f (cs_inner s1)) as [[i1 r1]| |] eqn:EC; cbn [bind] in HP; try discriminate. injection HP as <- <-.
        exists (l ++ [(CClose f, CAUnit r1)]), v'. splits; [eapply c_trace_app; [exact HT|history]| |exact (cshows_forget HV')].
        cbn. exists l, [(CClose f, CAUnit r1)], (Ok tt). splits; eauto.
      + injection HP as <- <-. exists (l ++ []), v'. splits; [rewrite app_nil_r; exact HT| |exact (cshows_forget HV')].
        cbn. exists l, [], (Err e). auto.
    - destruct (c_flush (cscr_consumer dbg x0 fuel C) s) as [[s2 r2]| |] eqn:HP; cbn [bind] in H; try discriminate. injection H as <- <-.
      change (cscr_flush dbg x0 fuel C s = Ret (s2, r2)) in HP. unfold cscr_flush in HP.
      destruct (cscr_drain dbg x0 fuel C s) as [[s1 r1]| |] eqn:E1; cbn [bind] in HP; try discriminate.
      destruct (cscr_drain_calls _ HV E1) as (l & v' & HT & HD & HV'). destruct r1 as [[]|e].
      + destruct (c_flush C (cs_inner s1)) as [[i1 r1]| |] eqn:EC; cbn [bind] in HP; try discriminate. injection HP as <- <-.
        exists (l ++ [(CFlush, CAUnit r1)]), v'. splits; [eapply c_trace_app; [exact HT|history]| |exact HV'].
        cbn. exists l, [(CFlush, CAUnit r1)], (Ok tt). splits; eauto.
      + injection HP as <- <-. exists (l ++ []), v'. splits; [rewrite app_nil_r; exact HT| |exact HV'].
        cbn. exists l, [], (Err e). auto.
    - destruct (c_expose (cscr_consumer dbg x0 fuel C) s) as [[s2 r2]| |] eqn:HP; cbn [bind] in H; try discriminate. injection H as <- <-.
      change (cscr_expose dbg x0 fuel C s = Ret (s2, r2)) in HP. destruct (cscr_expose_calls _ HV HP) as (l & r' & v' & HT & HM & HR).
      exists l, v'. destruct r' as [[]|e].
      + destruct HR as (k & -> & Hk1 & Hk2 & HV'). splits; [exact HT| |exact HV']. cbn. exists (Ok tt). split; [exact HM|]. eauto.
      + destruct HR as (-> & HV'). splits; [exact HT| |exact (cshows_forget HV')]. cbn. exists (Err e). auto.
    - injection H as <- <-. exists [], v. splits; [constructor|cbn; auto|]. destruct v as [b i]. pose proof HV as (HQ & _).
      exact (cshows_buffer (fst kw, overlay ys (snd kw)) HV (lq_write (fixed_lawful cap) ys HQ HO)).
    - destruct (c_consume_slots (cscr_consumer dbg x0 fuel C) n s) as [[s2 r2]| |] eqn:HP; cbn [bind] in H; try discriminate. injection H as <- <-.
      change (cscr_consume_slots n s = Ret (s2, r2)) in HP. unfold cscr_consume_slots in HP. pose proof HV as (HQ & _).
      destruct (lq_consider_enqueued (fixed_lawful cap) n HQ HO) as (q & EQ & HQ'). rewrite EQ in HP. cbn [bind] in HP. injection HP as <- <-.
      exists [], (holds (cv_items v ++ firstn n (snd kw)) v). splits; [constructor|cbn; auto|]. destruct v as [b i].
      exact (cshows_buffer (fst kw - n, skipn n (snd kw)) HV HQ').
    - destruct (c_bulk_consume (cscr_consumer dbg x0 fuel C) buf s) as [[s2 r2]| |] eqn:HP; cbn [bind] in H; try discriminate. injection H as <- <-.
      change (default_bulk_consume (cscr_expose dbg x0 fuel C) (@cscr_write S T) (@cscr_consume_slots S T E) buf s = Ret (s2, r2)) in HP.
      unfold default_bulk_consume in HP.
      destruct (cscr_expose dbg x0 fuel C s) as [[s1 r1]| |] eqn:E1; cbn [bind] in HP; try discriminate.
      destruct (cscr_expose_calls _ HV E1) as (l & r' & v' & HT & HM & HR). exists l. destruct r' as [[]|e].
      + destruct HR as (k & -> & Hk1 & Hk2 & HV'). set (m := Nat.min k (length buf)) in *.
        assert (Hf : length (firstn m buf) = m) by (rewrite firstn_length; subst m; lia).
        pose proof HV' as (HQ & _). cbn [fst snd] in HQ.
        pose proof (lq_write (fixed_lawful cap) (firstn m buf) HQ ltac:(lia)) as HQ1. rewrite overlay_nil in HQ1.
        destruct (lq_consider_enqueued (fixed_lawful cap) m HQ1 ltac:(lia)) as (q & EQ & HQ2).
        unfold cscr_consume_slots, cscr_write in HP. cbn [cs_with_buffer cs_buffer] in HP. rewrite EQ in HP. cbn [bind] in HP. injection HP as <- <-.
        rewrite firstn_firstn, Nat.min_id in HQ2.
        exists (holds (cv_items v' ++ firstn m buf) v'). splits; [exact HT| |].
        * cbn. exists (Ok tt), v'. split; [exact HM|]. exists m. splits; auto; try (subst m; lia).
          intros Hm. destruct buf; [reflexivity|]. cbn in m. lia.
        * destruct v' as [b i]. exact (cshows_buffer (0, []) HV' (lq_forget (fixed_lawful cap) HQ2)).
      + destruct HR as (-> & HV'). injection HP as <- <-. exists v'. splits; [exact HT| |exact (cshows_forget HV')]. cbn. exists (Err e), v'. auto.
  Qed.

  Lemma cscr_history_calls : forall fuel s lo s', c_trace (cscr_consumer dbg x0 fuel C) s lo s' -> forall v kw, cshows s v kw -> writes_first kw lo ->
    exists l v', c_trace C (cs_inner s) l (cs_inner s') /\ cscr_calls ops cap kw v lo l v'.
  Proof.
    intros fuel s lo s' H. induction H as [s|s o s1 a h s' HD HT IH]; intros v kw HV HW.
    - exists [], v. splits; constructor.
    - cbn in HW. destruct HW as (HO & HW).
      destruct (cscr_do_calls _ _ HV HO HD) as (l & v1 & HT1 & HC & HV1). destruct (IH _ _ HV1 HW) as (l' & v' & HT2 & HCs).
      exists (l ++ l'), v'. splits; [eapply c_trace_app; eassumption|econstructor; eassumption].
  Qed.
End Consumer.

Lemma cscr_progress : forall ops, (if cscr_make_progress ops then ops else ops ++ [ScConsume]) = all_consumer_ops ops.
Proof.
  intros ops. unfold all_consumer_ops.
  assert (H : cscr_make_progress ops = negb (forallb (fun o => match o with ScFlush => true | _ => false end) ops)).
  { induction ops as [|[] ops IH]; cbn; auto. }
  rewrite H. destruct (forallb _ _); reflexivity.
Qed.

Lemma all_consumer_ops_some : forall ops, 0 < length (all_consumer_ops ops).
Proof. intros [|[] ops]; unfold all_consumer_ops; cbn; try lia. destruct (forallb _ _); cbn; lia. Qed.

Lemma cscr_new_calls : forall S T F E dbg x0 (C : bulk_consumer S T F E) s ops cap fuel lo st, 0 < cap ->
  c_trace (cscr_consumer dbg x0 fuel C) (cscr_new_with_capacity x0 s ops cap) lo st -> writes_first (0, []) lo ->
  exists l v, c_trace C s l (cs_inner st) /\ cscr_calls (all_consumer_ops ops) cap (0, []) (mk_cview [] 0) lo l v.
Proof.
  intros S T F E dbg x0 C s ops cap fuel lo st Hc H HW.
  assert (HV : cshows (all_consumer_ops ops) cap (cscr_new_with_capacity x0 s ops cap) (mk_cview [] 0) (0, [])).
  { unfold cshows, cscr_new_with_capacity. cbn. splits; auto; [|apply cscr_progress]. now apply fixed_new_R. }
  exact (cscr_history_calls (all_consumer_ops_some ops) H HV HW).
Qed.

(** Nothing is passed on while there is room. *)
Lemma cscr_calls_items : forall T F E ops cap (xs : list T) kw b i (l : list (cop T F * cans E)) v, length b + length xs <= cap ->
  cscr_calls ops cap kw (mk_cview b i) (map (fun x => (CConsume x, CAUnit (Ok tt))) xs) l v -> l = [] /\ v = mk_cview (b ++ xs) i.
Proof.
  induction xs as [|x xs IH]; intros kw b i l v Hl H; cbn [map] in H.
  - inversion H; subst. rewrite app_nil_r. auto.
  - cbn [length] in Hl. inversion H as [|? ? ? l1 ? v1 ? l2 ? HC HR]; subst. destruct HC as (r & u & HM & Ha & Hv). unfold makes_room in HM. cbn [cv_items] in HM.
    rewrite (proj2 (Nat.ltb_lt _ _)) in HM by lia. destruct HM as (-> & -> & ->). subst v1. unfold holds in HR. cbn [cv_items cv_next] in HR.
    apply IH in HR; [|rewrite app_length; cbn; lia]. destruct HR as (-> & ->). rewrite <- app_assoc. auto.
Qed.

Lemma cscr_waits : forall S T F E dbg x0 (C : bulk_consumer S T F E) s ops cap fuel xs st, 0 < cap -> length xs <= cap ->
  c_trace (cscr_consumer dbg x0 fuel C) (cscr_new_with_capacity x0 s ops cap) (map (fun x => (CConsume x, CAUnit (Ok tt))) xs) st -> cs_inner st = s.
Proof.
  intros S T F E dbg x0 C s ops cap fuel xs st Hc Hl H.
  assert (HW : forall kw, writes_first kw (map (fun x => (@CConsume T F x, @CAUnit E (Ok tt))) xs)).
  { clear. induction xs as [|x xs IH]; intros kw; cbn; auto. }
  destruct (cscr_new_calls Hc H (HW _)) as (l & v & HT & HC). apply cscr_calls_items in HC; [|exact Hl]. destruct HC as (-> & _). now inversion HT.
Qed.

(** Some operation moves items, and one is added only if none does. *)
Lemma all_producer_ops_ok : forall ops, (exists o, In o (all_producer_ops ops) /\ o <> ScSlurp) /\
  ((exists o, In o ops /\ o <> ScSlurp) -> all_producer_ops ops = ops) /\ ((forall o, In o ops -> o = ScSlurp) -> all_producer_ops ops = ops ++ [ScProduce]).
Proof.
  intros ops. unfold all_producer_ops. destruct (forallb _ ops) eqn:Ef.
  - rewrite forallb_forall in Ef. splits; auto.
    + exists ScProduce. split; [apply in_or_app; right; now left|discriminate].
    + intros (o & Hi & Ho). apply Ef in Hi. destruct o; congruence.
  - assert (HX : exists o, In o ops /\ o <> ScSlurp).
    { induction ops as [|[] ops IH]; cbn in Ef; [discriminate| | |]; try (eexists; split; [now left|discriminate]).
      destruct (IH Ef) as (o & Hi & Ho). exists o. split; [now right|exact Ho]. }
    splits; auto. intros HA. destruct HX as (o & Hi & Ho). now apply HA in Hi.
Qed.
Lemma all_consumer_ops_ok : forall ops, (exists o, In o (all_consumer_ops ops) /\ o <> ScFlush) /\
  ((exists o, In o ops /\ o <> ScFlush) -> all_consumer_ops ops = ops) /\ ((forall o, In o ops -> o = ScFlush) -> all_consumer_ops ops = ops ++ [ScConsume]).
Proof.
  intros ops. unfold all_consumer_ops. destruct (forallb _ ops) eqn:Ef.
  - rewrite forallb_forall in Ef. splits; auto.
    + exists ScConsume. split; [apply in_or_app; right; now left|discriminate].
    + intros (o & Hi & Ho). apply Ef in Hi. destruct o; congruence.
  - assert (HX : exists o, In o ops /\ o <> ScFlush).
    { induction ops as [|[] ops IH]; cbn in Ef; [discriminate| | |]; try (eexists; split; [now left|discriminate]).
      destruct (IH Ef) as (o & Hi & Ho). exists o. split; [now right|exact Ho]. }
    splits; auto. intros HA. destruct HX as (o & Hi & Ho). now apply HA in Hi.
Qed.

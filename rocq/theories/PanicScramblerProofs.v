(** Proofs about the BulkScramblers around objects whose methods may panic. *)
From Coq Require Import Bool List Arith Lia.
From Verif Require Import Prelude ListFacts Traits Contracts QueueModel QueueSpec QueueProofs BasicModel CloneModel ScramblerModel ScramblerProofs
  PanicModel PanicSpec PanicProofs PanicScramblerModel PanicScramblerSpec.
Import ListNotations.
Set Implicit Arguments.

Lemma call_cases {A B C} (c : outcome (A * B * C)) : c <> Panic -> c = NoFuel \/ exists a b r, c = Ret (a, b, r).
Proof. destruct c as [[[a b] r]| |]; intros H; [right; now exists a, b, r|congruence|now left]. Qed.

Lemma p_use_length {W S T F E} (P : v_producer W S T F E) calls : forall shown s w s' w' h, p_use P shown calls s w = Ret (s', w', h) -> length h = length calls.
Proof.
  induction calls as [|o calls IH]; intros shown s w s' w' h H; cbn [p_use] in H.
  - now injection H as _ _ <-.
  - match type of H with bind (p_call P ?o' s w) _ = _ => destruct (p_call P o' s w) as [[[i v] a]| |] end; cbn [bind] in H; try discriminate.
    match type of H with bind (p_use P ?x calls i v) _ = _ => destruct (p_use P x calls i v) as [[[i' v'] rest]| |] eqn:E1 end; cbn [bind] in H; try discriminate.
    injection H as _ _ <-. cbn [length]. now rewrite (IH _ _ _ _ _ _ E1).
Qed.

Definition unw {X} (r : caught X) : nat := match r with Unwound => 1 | Done _ => 0 end.

Lemma count_app {A} (p : A -> bool) l m : count p (l ++ m) = count p l + count p m.
Proof. unfold count. now rewrite filter_app, app_length. Qed.

Section Producer.
  Context {W S T F E : Type} (dbg : bool) (P : v_producer W S T F E).
  Hypothesis N : forall o s w, p_call P o s w <> Panic.

  Lemma n_produce s w : v_produce P s w = NoFuel \/ exists i w' r, v_produce P s w = Ret (i, w', r).
  Proof. apply call_cases. intros H. apply (N PProduce s w). cbn. now rewrite H. Qed.
  Lemma n_slurp s w : v_slurp P s w = NoFuel \/ exists i w' r, v_slurp P s w = Ret (i, w', r).
  Proof. apply call_cases. intros H. apply (N PSlurp s w). cbn. now rewrite H. Qed.
  Lemma n_expose s w : v_expose P s w = NoFuel \/ exists i w' r, v_expose P s w = Ret (i, w', r).
  Proof. apply call_cases. intros H. apply (N PExpose s w). cbn. now rewrite H. Qed.
  Lemma n_consider n s w : v_consider P n s w = NoFuel \/ exists i w' r, v_consider P n s w = Ret (i, w', r).
  Proof. apply call_cases. intros H. apply (N (PConsider n) s w). cbn. now rewrite H. Qed.

  Lemma p_run_app ops1 : forall s w s1 w1 ans1 ops2 s2 w2 ans2, p_run P ops1 s w = Ret (s1, w1, ans1) -> p_run P ops2 s1 w1 = Ret (s2, w2, ans2) ->
    p_run P (ops1 ++ ops2) s w = Ret (s2, w2, ans1 ++ ans2).
  Proof.
    induction ops1 as [|o ops1 IH]; intros s w s1 w1 ans1 ops2 s2 w2 ans2 H1 H2; cbn [p_run app] in *.
    - injection H1 as <- <- <-. exact H2.
    - destruct (p_call P o s w) as [[[i v] a]| |]; cbn [bind] in *; try discriminate.
      destruct (p_run P ops1 i v) as [[[i' v'] rest]| |] eqn:E1; cbn [bind] in *; try discriminate.
      injection H1 as <- <- <-. rewrite (IH _ _ _ _ _ _ _ _ _ E1 H2). reflexivity.
  Qed.

  Lemma drawn_app ops1 ans1 xs1 : @drawn T F E ops1 ans1 xs1 -> forall ops2 ans2 xs2, drawn ops2 ans2 xs2 -> drawn (ops1 ++ ops2) (ans1 ++ ans2) (xs1 ++ xs2).
  Proof.
    induction 1; intros ops2 ans2 xs2 H2; cbn [app]; [exact H2|constructor; auto..| |constructor; auto].
    rewrite <- app_assoc. constructor; auto.
  Qed.

  Section Fixed.
    Variables (cap : nat) (ops : list pscr_op).
    Hypothesis Hcap : 0 < cap.

    Definition pulls (s : pscr S T F E) (w : W) (q : list T) (s' : pscr S T F E) (w' : W) (q' : list T) (k : nat) : Prop :=
      exists ops0 ans0 l, p_run P ops0 (ps_inner s) w = Ret (ps_inner s', w', ans0) /\ drawn ops0 ans0 l /\ q' = q ++ l /\ count panicked ans0 = k /\ pscr_wf cap ops s' q'.

    Lemma pulls_refl s w q s' : pscr_wf cap ops s' q -> ps_inner s' = ps_inner s -> pulls s w q s' w q 0.
    Proof. intros H Hi. exists [], [], []. rewrite <- Hi. split; [reflexivity|]. split; [constructor|]. split; [symmetry; apply app_nil_r|]. split; [reflexivity|exact H]. Qed.

    Lemma pulls_trans s w q s1 w1 q1 s2 w2 q2 k1 k2 : pulls s w q s1 w1 q1 k1 -> pulls s1 w1 q1 s2 w2 q2 k2 -> pulls s w q s2 w2 q2 (k1 + k2).
    Proof.
      intros (o1 & a1 & l1 & R1 & D1 & -> & <- & _) (o2 & a2 & l2 & R2 & D2 & -> & <- & W2).
      exists (o1 ++ o2), (a1 ++ a2), (l1 ++ l2). split; [eapply p_run_app; eassumption|]. split; [now apply drawn_app|].
      split; [symmetry; apply app_assoc|]. split; [apply count_app|exact W2].
    Qed.

    Lemma pulls_wf s w q s' w' q' k : pulls s w q s' w' q' k -> pscr_wf cap ops s' q'.
    Proof. now intros (? & ? & ? & _ & _ & _ & _ & H). Qed.

    Lemma wf_inner (s : pscr S T F E) q i : pscr_wf cap ops s q -> pscr_wf cap ops (ps_with_inner i s) q. Proof. intros H; exact H. Qed.
    Lemma wf_last (s : pscr S T F E) q l : pscr_wf cap ops s q -> pscr_wf cap ops (ps_with_last l s) q. Proof. intros H; exact H. Qed.

    Lemma wf_advance (s : pscr S T F E) q : pscr_wf cap ops s q -> exists s', pscr_advance s = Ret s' /\ pscr_wf cap ops s' q /\ ps_inner s' = ps_inner s.
    Proof.
      intros H. eexists. split; [exact (pscr_advance_ok H)|]. destruct H as (HQ & Ho & Hi). split; [|reflexivity].
      repeat split; cbn; auto; try apply HQ. apply Nat.mod_upper_bound. lia.
    Qed.

    Lemma one_call o s w i w' a l q s' k : p_call P o (ps_inner s) w = Ret (i, w', a) -> drawn [o] [a] l -> ps_inner s' = i -> pscr_wf cap ops s' (q ++ l) -> count panicked [a] = k ->
      pulls s w q s' w' (q ++ l) k.
    Proof. intros H D <- HW Hk. exists [o], [a], l. cbn [p_run]. rewrite H. cbn [bind]. split; [reflexivity|]. auto. Qed.

    Lemma perform_pulls s w q : pscr_wf cap ops s q -> length q < cap ->
      pscr_perform_operation_v dbg P s w = NoFuel \/
      exists s' w' r q', pscr_perform_operation_v dbg P s w = Ret (s', w', r) /\ pulls s w q s' w' q' (unw r).
    Proof.
      intros HW Hlt. pose proof HW as (HQ & Ho & Hi). unfold pscr_perform_operation_v. rewrite debug_assert_true.
      2: { rewrite (pscr_wf_len HW). destruct (pscr_wf_cap HW) as [-> _]. now apply Nat.ltb_lt. }
      rewrite Ho. unfold index. destruct (nth_error ops (ps_index s)) as [o|] eqn:En; [|apply nth_error_None in En; lia].
      cbn [bind]. destruct o as [|n|].
      - destruct (n_produce (ps_inner s) w) as [->|(i & w' & r & H)]; [now left|]. rewrite H. cbn [bind]. right.
        assert (HC : p_call P PProduce (ps_inner s) w = Ret (i, w', PItem r)) by (cbn; now rewrite H).
        assert (Hno : (forall x, r <> Done (Ok (inl x))) -> pulls s w q (ps_with_inner i s) w' (q ++ []) (unw r)).
        { intros Hr. eapply one_call; [exact HC|constructor; [exact Hr|constructor]|reflexivity| |destruct r; reflexivity]. rewrite app_nil_r. exact HW. }
        destruct r as [[[x|f]|e]|].
        + cbn [ps_with_inner ps_buffer]. destruct (lq_enqueue (fixed_lawful cap) x HQ Hlt) as (b & E2 & HQ').
          rewrite E2. cbn [bind]. rewrite debug_assert_true by reflexivity.
          edestruct (wf_advance (s := ps_with_buffer b (ps_with_inner i s)) (q := q ++ [x])) as (s' & -> & HW' & Hin); [repeat split; auto; apply HQ'|].
          cbn [bind]. eexists _, _, _, _. split; [reflexivity|]. eapply one_call; [exact HC|repeat constructor|exact Hin|exact HW'|reflexivity].
        + eexists _, _, _, _. split; [reflexivity|]. apply Hno. discriminate.
        + eexists _, _, _, _. split; [reflexivity|]. apply Hno. discriminate.
        + eexists _, _, _, _. split; [reflexivity|]. apply Hno. discriminate.
      - destruct (n_expose (ps_inner s) w) as [->|(i & w' & r & H)]; [now left|]. rewrite H. cbn [bind].
        assert (HC : p_call P PExpose (ps_inner s) w = Ret (i, w', PSlice r)) by (cbn; now rewrite H).
        assert (Hno : (forall x, r <> Done (Ok (inl x))) -> pulls s w q (ps_with_inner i s) w' (q ++ []) (unw r)).
        { intros Hr. eapply one_call; [exact HC|constructor; [exact Hr|constructor]|reflexivity| |destruct r; reflexivity]. rewrite app_nil_r. exact HW. }
        destruct r as [[[zs|f]|e]|].
        + cbn [ps_with_inner ps_buffer ps_inner]. rewrite slice_to_ok by lia. cbn [bind].
          destruct (lawful_bulk_enqueue (fixed_lawful cap) (firstn (Nat.min (length zs) n) zs) HQ) as (b & m & E2 & Hm1 & Hm2 & Hm3 & HQ').
          rewrite E2. cbn [bind]. rewrite firstn_length in Hm1.
          unfold ps_with_buffer, ps_with_inner. cbn [ps_inner ps_buffer ps_last ps_operations ps_index].
          destruct (n_consider m i w') as [->|(i2 & w2 & r2 & H2)]; [now left|]. rewrite H2. cbn [bind]. right.
          rewrite firstn_firstn, Nat.min_l in HQ' by lia.
          assert (HP : forall s', ps_inner s' = i2 -> pscr_wf cap ops s' (q ++ firstn m zs) -> pulls s w q s' w2 (q ++ firstn m zs) (unw r2)).
          { intros s' <- HW'. exists [PExpose; PConsider m], [PSlice (Done (Ok (inl zs))); PUnit r2], (firstn m zs ++ []).
            cbn [p_run p_call]. rewrite H. cbn [bind]. rewrite H2. cbn [bind]. split; [reflexivity|].
            split; [constructor; [lia|constructor]|]. rewrite app_nil_r. split; [reflexivity|]. split; [destruct r2; reflexivity|exact HW']. }
          assert (HW2 : pscr_wf cap ops (mk_pscr i2 b (ps_last s) (ps_operations s) (ps_index s)) (q ++ firstn m zs)) by (repeat split; auto; apply HQ').
          destruct r2 as [[[]|e]|].
          * destruct (wf_advance HW2) as (s' & -> & HW' & Hin). cbn [bind]. eexists _, _, _, _. split; [reflexivity|]. apply HP; auto.
          * eexists _, _, _, _. split; [reflexivity|]. apply HP; auto.
          * eexists _, _, _, _. split; [reflexivity|]. apply HP; auto.
        + right. eexists _, _, _, _. split; [reflexivity|]. apply Hno. discriminate.
        + right. eexists _, _, _, _. split; [reflexivity|]. apply Hno. discriminate.
        + right. eexists _, _, _, _. split; [reflexivity|]. apply Hno. discriminate.
      - destruct (n_slurp (ps_inner s) w) as [->|(i & w' & r & H)]; [now left|]. rewrite H. cbn [bind]. right.
        assert (HC : p_call P PSlurp (ps_inner s) w = Ret (i, w', PUnit r)) by (cbn; now rewrite H).
        assert (Hall : forall s', ps_inner s' = i -> pscr_wf cap ops s' q -> pulls s w q s' w' (q ++ []) (unw r)).
        { intros s' <- HW'. eapply one_call; [exact HC|repeat constructor|reflexivity| |destruct r; reflexivity]. rewrite app_nil_r. exact HW'. }
        destruct r as [[[]|e]|].
        + destruct (wf_advance (wf_inner i HW)) as (s' & -> & HW' & Hin). cbn [bind]. eexists _, _, _, _. split; [reflexivity|]. apply Hall; auto.
        + eexists _, _, _, _. split; [reflexivity|]. apply Hall; auto.
        + eexists _, _, _, _. split; [reflexivity|]. apply Hall; auto.
    Qed.

    Lemma pulls_relast s w q s' w' q' l k : pulls s w q s' w' q' k -> pulls s w q (ps_with_last l s') w' q' k.
    Proof. intros H. exact H. Qed.

    Lemma fill_loop_pulls fuel : forall s w q, pscr_wf cap ops s q ->
      pscr_fill_loop_v dbg fuel P s w = NoFuel \/
      exists s' w' r q', pscr_fill_loop_v dbg fuel P s w = Ret (s', w', r) /\ pulls s w q s' w' q' (unw r) /\
        (r = Done tt -> ps_last s' <> None \/ length q' = cap).
    Proof.
      induction fuel as [|fuel IH]; intros s w q HW; [now left|]. cbn [pscr_fill_loop_v].
      destruct (ps_last s) as [l|] eqn:El.
      { right. exists s, w, (Done tt), q. split; [reflexivity|]. split; [now apply pulls_refl|]. intros _. left. congruence. }
      rewrite (pscr_wf_len HW). destruct (pscr_wf_cap HW) as [-> Hc]. destruct (Nat.ltb_spec (length q) cap) as [Hlt|Hge].
      2: { right. exists s, w, (Done tt), q. split; [reflexivity|]. split; [now apply pulls_refl|]. intros _. right. lia. }
      destruct (perform_pulls w HW Hlt) as [->|(s1 & w1 & r & q1 & -> & HP)]; [now left|]. cbn [bind].
      assert (Hgo : forall s2, pulls s w q s2 w1 q1 0 -> pscr_fill_loop_v dbg fuel P s2 w1 = NoFuel \/
        exists s' w' r q', pscr_fill_loop_v dbg fuel P s2 w1 = Ret (s', w', r) /\ pulls s w q s' w' q' (unw r) /\ (r = Done tt -> ps_last s' <> None \/ length q' = cap)).
      { intros s2 H2. destruct (IH s2 w1 q1 (pulls_wf H2)) as [->|(s' & w' & r' & q' & -> & H3 & H4)]; [now left|].
        right. exists s', w', r', q'. split; [reflexivity|]. split; [exact (pulls_trans H2 H3)|exact H4]. }
      destruct r as [[[f|]|e]|]; [apply Hgo, pulls_relast, HP|apply Hgo, HP|apply Hgo, pulls_relast, HP|].
      right. exists s1, w1, Unwound, q1. split; [reflexivity|]. split; [exact HP|discriminate].
    Qed.

    Lemma fill_queue_pulls fuel s w q : pscr_wf cap ops s q ->
      pscr_fill_queue_v dbg fuel P s w = NoFuel \/
      exists s' w' r q', pscr_fill_queue_v dbg fuel P s w = Ret (s', w', r) /\ pulls s w q s' w' q' (unw r) /\
        (r = Done None -> q' <> []) /\ (forall l, r = Done (Some l) -> q' = []).
    Proof.
      intros HW. unfold pscr_fill_queue_v. destruct (fill_loop_pulls fuel w HW) as [->|(s1 & w1 & r & q1 & -> & HP & Hr)]; [now left|].
      cbn [bind]. right. destruct r as [[]|].
      2: { exists s1, w1, Unwound, q1. split; [reflexivity|]. split; [exact HP|]. split; discriminate. }
      rewrite (pscr_wf_len (pulls_wf HP)). destruct q1 as [|x q1]; cbn [length Nat.eqb].
      - eexists _, _, _, []. split; [reflexivity|]. split; [apply pulls_relast, HP|]. split; [|reflexivity].
        intros E1. injection E1 as E1. destruct (Hr eq_refl) as [H|H]; [congruence|cbn in H; lia].
      - eexists _, _, _, (x :: q1). split; [reflexivity|]. split; [exact HP|]. split; discriminate.
    Qed.

    Lemma unw_pulls s w q s' w' q' (r : caught (res unit E)) : pulls s w q s' w' q' (unw r) -> pulls s w q s' w' q' (if panicked (@PUnit T F E r) then 1 else 0).
    Proof. destruct r; auto. Qed.

    (** One call of the caller. *)
    Lemma call_pulls fuel o s w q shown rest : pscr_wf cap ops s q -> q = shown ++ rest -> (forall n, o = PConsider n -> n <= length shown) ->
      p_call (pscr_producer_v dbg fuel P) o s w = NoFuel \/
      exists s' w' a ops0 ans0 l q' rest',
        p_call (pscr_producer_v dbg fuel P) o s w = Ret (s', w', a) /\
        p_run P ops0 (ps_inner s) w = Ret (ps_inner s', w', ans0) /\ drawn ops0 ans0 l /\ count panicked ans0 = (if panicked a then 1 else 0) /\ pscr_wf cap ops s' q' /\
        q ++ l = match o, a with PProduce, PItem (Done (Ok (inl x))) => [x] | PConsider n, _ => firstn n shown | _, _ => [] end ++ q' /\
        q' = on_display o a shown ++ rest' /\ (is_end o a = true -> q' = []).
    Proof.
      intros HW Hq Hn.
      assert (Hdone : forall s' w' q' (a : panswer T F E), pulls s w q s' w' q' (if panicked a then 1 else 0) -> o <> PExpose -> (forall n, o <> PConsider n) ->
        match o, a with PProduce, PItem (Done (Ok (inl x))) => [x] | PConsider n, _ => firstn n shown | _, _ => [] end = [] -> (is_end o a = true -> q' = []) ->
        exists ops0 ans0 l q1 rest', p_run P ops0 (ps_inner s) w = Ret (ps_inner s', w', ans0) /\ drawn ops0 ans0 l /\ count panicked ans0 = (if panicked a then 1 else 0) /\ pscr_wf cap ops s' q1 /\
        q ++ l = match o, a with PProduce, PItem (Done (Ok (inl x))) => [x] | PConsider n, _ => firstn n shown | _, _ => [] end ++ q1 /\
        q1 = on_display o a shown ++ rest' /\ (is_end o a = true -> q1 = [])).
      { intros s' w' q' a (o1 & a1 & l & R1 & D1 & -> & K1 & W1) H1 H2 H3 H4. exists o1, a1, l, (q ++ l), (q ++ l). rewrite H3.
        split; [exact R1|]. split; [exact D1|]. split; [exact K1|]. split; [exact W1|]. split; [reflexivity|]. split; [|exact H4].
        destruct o; try congruence; try reflexivity. }
      destruct o as [| | |n]; cbn [p_call pscr_producer_v v_produce v_slurp v_expose v_consider].
      - unfold pscr_produce_v. destruct (fill_queue_pulls fuel w HW) as [->|(s1 & w1 & r & q1 & -> & HP & H1 & H2)]; [now left|]. cbn [bind]. right.
        destruct r as [[[f|e]|]|]; cbn [bind].
        + eexists _, _, (PItem (Done (Ok (inr f)))). edestruct (Hdone _ _ _ (PItem (Done (Ok (inr f)))) HP) as (o1 & a1 & l & q2 & r2 & H); [discriminate|discriminate|reflexivity| |].
          2: { exists o1, a1, l, q2, r2. split; [reflexivity|exact H]. } intros _. now apply (H2 (Ok f)).
        + eexists _, _, (PItem (Done (Err e))). edestruct (Hdone _ _ _ (PItem (Done (Err e))) HP) as (o1 & a1 & l & q2 & r2 & H); [discriminate|discriminate|reflexivity| |].
          2: { exists o1, a1, l, q2, r2. split; [reflexivity|exact H]. } intros _. now apply (H2 (Err e)).
        + specialize (H1 eq_refl). destruct q1 as [|x q1]; [congruence|].
          destruct HP as (o1 & a1 & l & R1 & D1 & Hl & K1 & HQ & Ho & Hi).
          destruct (lq_dequeue (fixed_lawful cap) HQ) as (b & -> & HQ'). cbn [bind expect].
          eexists _, _, _, o1, a1, l, q1, q1. split; [reflexivity|]. split; [exact R1|]. split; [exact D1|]. split; [exact K1|].
          split; [split; [exact HQ'|auto]|]. split; [symmetry; exact Hl|]. split; [reflexivity|discriminate].
        + eexists _, _, (PItem Unwound). edestruct (Hdone _ _ _ (PItem Unwound) HP) as (o1 & a1 & l & q2 & r2 & H); [discriminate|discriminate|reflexivity| |].
          2: { exists o1, a1, l, q2, r2. split; [reflexivity|exact H]. } discriminate.
      - unfold pscr_slurp_v. destruct (fill_queue_pulls fuel w HW) as [->|(s1 & w1 & r & q1 & -> & HP & H1 & H2)]; [now left|]. cbn [bind].
        assert (HI : forall s2, pulls s w q s2 w1 q1 0 ->
          (let* (s, w, r) := pscr_slurp_inner_v P s2 w1 in Ret (s, w, @PUnit T F E r)) = NoFuel \/
          exists s' w' r, (let* (s, w, r) := pscr_slurp_inner_v P s2 w1 in Ret (s, w, @PUnit T F E r)) = Ret (s', w', PUnit r) /\
            pulls s w q s' w' q1 (unw r) /\ (is_end PSlurp (@PUnit T F E r) = true -> q1 = [])).
        { intros s2 H3. unfold pscr_slurp_inner_v. destruct (n_slurp (ps_inner s2) w1) as [->|(i & w2 & r2 & H)]; [now left|]. rewrite H. cbn [bind]. right.
          assert (HP2 : forall s', ps_inner s' = i -> pscr_wf cap ops s' q1 -> pulls s w q s' w2 q1 (unw r2)).
          { intros s' Hin HW'. apply (pulls_trans (k1 := 0) (k2 := unw r2) H3).
            assert (HH : pulls s2 w1 q1 s' w2 (q1 ++ []) (unw r2)).
            { eapply one_call with (o := PSlurp); [cbn; rewrite H; reflexivity|repeat constructor|exact Hin| |destruct r2; reflexivity]. rewrite app_nil_r. exact HW'. }
            rewrite app_nil_r in HH. exact HH. }
          pose proof (wf_inner i (pulls_wf H3)) as HW2. rewrite (pscr_wf_len HW2).
          destruct r2 as [[[]|e]|].
          - eexists _, _, _. split; [reflexivity|]. split; [now apply HP2|discriminate].
          - destruct q1 as [|x q1]; cbn [length Nat.eqb bind]; eexists _, _, _; (split; [reflexivity|]); (split; [now apply HP2|]); [reflexivity|discriminate].
          - eexists _, _, _. split; [reflexivity|]. split; [now apply HP2|discriminate]. }
        destruct r as [[[f|e]|]|]; cbn [bind].
        + destruct (HI _ (pulls_relast (Some (Ok f)) HP)) as [->|(s' & w' & r & -> & HP' & H3)]; [now left|]. right.
          eexists _, _, (PUnit r). edestruct (Hdone _ _ _ (PUnit r) (unw_pulls _ HP')) as (o1 & a1 & l & q2 & r2 & H); [discriminate|discriminate|reflexivity|exact H3|].
          exists o1, a1, l, q2, r2. split; [reflexivity|exact H].
        + right. eexists _, _, (PUnit (Done (Err e))). edestruct (Hdone _ _ _ (PUnit (Done (Err e))) HP) as (o1 & a1 & l & q2 & r2 & H); [discriminate|discriminate|reflexivity| |].
          2: { exists o1, a1, l, q2, r2. split; [reflexivity|exact H]. } intros _. now apply (H2 (Err e)).
        + destruct (HI _ HP) as [->|(s' & w' & r & -> & HP' & H3)]; [now left|]. right.
          eexists _, _, (PUnit r). edestruct (Hdone _ _ _ (PUnit r) (unw_pulls _ HP')) as (o1 & a1 & l & q2 & r2 & H); [discriminate|discriminate|reflexivity|exact H3|].
          exists o1, a1, l, q2, r2. split; [reflexivity|exact H].
        + right. eexists _, _, (PUnit Unwound). edestruct (Hdone _ _ _ (PUnit Unwound) HP) as (o1 & a1 & l & q2 & r2 & H); [discriminate|discriminate|reflexivity|discriminate|].
          exists o1, a1, l, q2, r2. split; [reflexivity|exact H].
      - unfold pscr_expose_v. destruct (fill_queue_pulls fuel w HW) as [->|(s1 & w1 & r & q1 & -> & HP & H1 & H2)]; [now left|]. cbn [bind]. right.
        destruct HP as (o1 & a1 & l & R1 & D1 & Hl & K1 & HW1).
        destruct r as [[[f|e]|]|]; cbn [bind].
        + eexists _, _, (PSlice (Done (Ok (inr f)))), o1, a1, l, q1, q1. split; [reflexivity|]. split; [exact R1|]. split; [exact D1|]. split; [exact K1|]. split; [exact HW1|].
          split; [now symmetry|]. split; [reflexivity|]. intros _. now apply (H2 (Ok f)).
        + eexists _, _, (PSlice (Done (Err e))), o1, a1, l, q1, q1. split; [reflexivity|]. split; [exact R1|]. split; [exact D1|]. split; [exact K1|]. split; [exact HW1|].
          split; [now symmetry|]. split; [reflexivity|]. intros _. now apply (H2 (Err e)).
        + specialize (H1 eq_refl). destruct HW1 as (HQ & Ho & Hi).
          destruct (lq_expose_items (fixed_lawful cap) HQ H1) as (b & sl & rest1 & -> & Hne & Hsp & HQ'). cbn [bind expect].
          eexists _, _, _, o1, a1, l, q1, rest1. split; [reflexivity|]. split; [exact R1|]. split; [exact D1|]. split; [exact K1|].
          split; [split; [exact HQ'|auto]|]. split; [now symmetry|]. split; [exact Hsp|discriminate].
        + eexists _, _, (PSlice Unwound), o1, a1, l, q1, q1. split; [reflexivity|]. split; [exact R1|]. split; [exact D1|]. split; [exact K1|]. split; [exact HW1|].
          split; [now symmetry|]. split; [reflexivity|discriminate].
      - right. specialize (Hn n eq_refl). destruct HW as (HQ & Ho & Hi). unfold pscr_consider_v.
        destruct (lq_consider_dequeued (fixed_lawful cap) n HQ) as (b & -> & HQ'); [subst q; rewrite app_length; lia|]. cbn [bind].
        eexists _, _, _, [], [], [], (skipn n q), rest. split; [reflexivity|]. split; [reflexivity|]. split; [constructor|]. split; [reflexivity|].
        split; [split; [exact HQ'|auto]|]. rewrite app_nil_r. subst q.
        rewrite skipn_app. replace (n - length shown) with 0 by lia. cbn [skipn on_display].
        split; [rewrite app_assoc, firstn_skipn; reflexivity|]. split; [reflexivity|discriminate].
    Qed.

    Lemma use_pulls fuel calls : forall s w q shown rest, pscr_wf cap ops s q -> q = shown ++ rest ->
      p_use (pscr_producer_v dbg fuel P) shown calls s w = NoFuel \/
      exists s' w' h ops0 ans0 l kept,
        p_use (pscr_producer_v dbg fuel P) shown calls s w = Ret (s', w', h) /\
        p_run P ops0 (ps_inner s) w = Ret (ps_inner s', w', ans0) /\ drawn ops0 ans0 l /\
        q ++ l = given shown h ++ kept /\ count panicked ans0 = count panicked (map snd h) /\ pscr_wf cap ops s' kept /\ (ends h = true -> kept = []).
    Proof.
      induction calls as [|o calls IH]; intros s w q shown rest HW Hq; cbn [p_use].
      - right. exists s, w, [], [], [], [], q. split; [reflexivity|]. split; [reflexivity|]. split; [constructor|].
        split; [apply app_nil_r|]. split; [reflexivity|]. split; [exact HW|discriminate].
      - set (o' := match o with PConsider n => PConsider (Nat.min n (length shown)) | o => o end).
        edestruct (@call_pulls fuel o' s w q shown rest HW Hq) as [->|(s1 & w1 & a & o1 & a1 & l1 & q1 & r1 & -> & R1 & D1 & K1 & W1 & Hl1 & Hq1 & He1)].
        { intros n. subst o'. destruct o; try discriminate. intros E1. injection E1 as <-. lia. }
        { now left. }
        cbn [bind]. destruct (IH s1 w1 q1 _ r1 W1 Hq1) as [->|(s2 & w2 & h & o2 & a2 & l2 & kept & E2 & R2 & D2 & Hl2 & K2 & Hc2 & He2)]; [now left|].
        rewrite E2. cbn [bind]. right. exists s2, w2, ((o', a) :: h), (o1 ++ o2), (a1 ++ a2), (l1 ++ l2), kept.
        split; [reflexivity|]. split; [eapply p_run_app; eassumption|]. split; [now apply drawn_app|].
        split; [cbn [given]; rewrite app_assoc, Hl1, <- app_assoc, Hl2, app_assoc; reflexivity|]. split; [rewrite count_app, K1, K2; unfold count; cbn [map filter snd]; destruct (panicked a); reflexivity|]. split; [exact Hc2|].
        destruct h as [|c h]; [|exact He2]. cbn [ends]. intros H.
        destruct calls as [|c calls]; [|apply p_use_length in E2; discriminate].
        cbn [p_use] in E2. injection E2 as <- <-. rewrite (He1 H) in W1.
        pose proof (pscr_wf_len W1) as H1. rewrite (pscr_wf_len Hc2) in H1. now apply length_zero_iff_nil.
    Qed.
  End Fixed.
End Producer.

Lemma c_use_length {W S T F E} (C : v_consumer W S T F E) calls : forall k ys s w s' w' h, c_use C k ys calls s w = Ret (s', w', h) -> length h = length calls.
Proof.
  induction calls as [|o calls IH]; intros k ys s w s' w' h H; cbn [c_use] in H.
  - now injection H as _ _ <-.
  - match type of H with bind (c_call C ?o' s w) _ = _ => destruct (c_call C o' s w) as [[[i v] a]| |] end; cbn [bind] in H; try discriminate.
    destruct (slots_after _ a k ys) as [k' ys']. destruct (c_use C k' ys' calls i v) as [[[i' v'] rest]| |] eqn:E1; cbn [bind] in H; try discriminate.
    injection H as _ _ <-. cbn [length]. now rewrite (IH _ _ _ _ _ _ _ E1).
Qed.

Lemma subsequence_app {A} (l1 m1 : list A) : subsequence l1 m1 -> forall l2 m2, subsequence l2 m2 -> subsequence (l1 ++ l2) (m1 ++ m2).
Proof. induction 1; intros l2 m2 H2; cbn [app]; [exact H2|apply sub_skip; auto|apply sub_take; auto]. Qed.

Section Consumer.
  Context {W S T F E : Type} (x0 : T) (C : v_consumer W S T F E).
  Hypothesis N : forall o s w, c_call C o s w <> Panic.

  Lemma n_consume x s w : v_consume C x s w = NoFuel \/ exists i w' r, v_consume C x s w = Ret (i, w', r).
  Proof. apply call_cases. intros H. apply (N (CConsume x) s w). cbn. now rewrite H. Qed.
  Lemma n_close f s w : v_close C f s w = NoFuel \/ exists i w' r, v_close C f s w = Ret (i, w', r).
  Proof. apply call_cases. intros H. apply (N (CClose f) s w). cbn. now rewrite H. Qed.
  Lemma n_flush s w : v_flush C s w = NoFuel \/ exists i w' r, v_flush C s w = Ret (i, w', r).
  Proof. apply call_cases. intros H. apply (N (CFlush) s w). cbn. now rewrite H. Qed.
  Lemma n_expose_slots s w : v_expose_slots C s w = NoFuel \/ exists i w' r, v_expose_slots C s w = Ret (i, w', r).
  Proof. apply call_cases. intros H. apply (N (CExpose) s w). cbn. now rewrite H. Qed.
  Lemma n_consume_slots n s w : v_consume_slots C n s w = NoFuel \/ exists i w' r, v_consume_slots C n s w = Ret (i, w', r).
  Proof. apply call_cases. intros H. apply (N (CConsumeSlots n) s w). cbn. now rewrite H. Qed.

  Lemma c_run_app ops1 : forall s w s1 w1 ans1 ops2 s2 w2 ans2, c_run C ops1 s w = Ret (s1, w1, ans1) -> c_run C ops2 s1 w1 = Ret (s2, w2, ans2) ->
    c_run C (ops1 ++ ops2) s w = Ret (s2, w2, ans1 ++ ans2).
  Proof.
    induction ops1 as [|o ops1 IH]; intros s w s1 w1 ans1 ops2 s2 w2 ans2 H1 H2; cbn [c_run app] in *.
    - injection H1 as <- <- <-. exact H2.
    - destruct (c_call C o s w) as [[[i v] a]| |]; cbn [bind] in *; try discriminate.
      destruct (c_run C ops1 i v) as [[[i' v'] rest]| |] eqn:E1; cbn [bind] in *; try discriminate.
      injection H1 as <- <- <-. rewrite (IH _ _ _ _ _ _ _ _ _ E1 H2). reflexivity.
  Qed.

  Lemma fed_app ops1 ans1 xs1 fs1 : @fed T F E ops1 ans1 xs1 fs1 -> forall ops2 ans2 xs2 fs2, fed ops2 ans2 xs2 fs2 ->
    fed (ops1 ++ ops2) (ans1 ++ ans2) (xs1 ++ xs2) (fs1 ++ fs2).
  Proof.
    induction 1; intros ops2 ans2 xs2 fs2 H2; cbn [app]; [exact H2|constructor; auto..| |constructor; auto].
    rewrite <- app_assoc. constructor; auto.
  Qed.

  Section Fixed.
    Variables (cap : nat) (ops : list cscr_op).
    Hypothesis Hcap : 0 < cap.

    Definition holds (s : cscr S T) (q : list T) (k : nat) (ys : list T) : Prop :=
      fixed_R cap (cs_buffer s) q k ys /\ cs_operations s = ops /\ cs_index s < length ops.

    Lemma holds_len s q k ys : holds s q k ys -> cs_len s = length q.
    Proof. intros (HQ & _). exact (lq_len (fixed_lawful cap) HQ). Qed.
    Lemma holds_cap s q k ys : holds s q k ys -> fixed_capacity (cs_buffer s) = cap /\ length q <= cap.
    Proof. intros ((_ & Hc & _ & _ & Hl & _) & _). lia. Qed.
    Lemma holds_forget s q k ys : holds s q k ys -> holds s q 0 [].
    Proof. intros (HQ & H). exact (conj (lq_forget (fixed_lawful cap) HQ) H). Qed.
    Lemma holds_advance s q k ys : holds s q k ys -> exists s', cscr_advance s = Ret s' /\ holds s' q k ys /\ cs_inner s' = cs_inner s.
    Proof.
      intros (HQ & Ho & Hi). unfold cscr_advance. rewrite Ho, cmod_ok by lia. cbn [bind]. eexists. split; [reflexivity|].
      split; [|reflexivity]. split; [exact HQ|]. split; [reflexivity|]. cbn. apply Nat.mod_upper_bound. lia.
    Qed.

    Definition pushes (s : cscr S T) (w : W) (q : list T) (s' : cscr S T) (w' : W) (q' : list T) (fs : list F) (n : nat) : Prop :=
      exists ops0 ans0 l, c_run C ops0 (cs_inner s) w = Ret (cs_inner s', w', ans0) /\ fed ops0 ans0 l fs /\ q = l ++ q' /\ count c_panicked ans0 = n /\ holds s' q' 0 [].

    Lemma pushes_refl s w q s' : holds s' q 0 [] -> cs_inner s' = cs_inner s -> pushes s w q s' w q [] 0.
    Proof. intros H Hi. exists [], [], []. rewrite <- Hi. split; [reflexivity|]. split; [constructor|]. split; [reflexivity|]. split; [reflexivity|exact H]. Qed.
    Lemma pushes_trans s w q s1 w1 q1 s2 w2 q2 fs1 fs2 n1 n2 : pushes s w q s1 w1 q1 fs1 n1 -> pushes s1 w1 q1 s2 w2 q2 fs2 n2 -> pushes s w q s2 w2 q2 (fs1 ++ fs2) (n1 + n2).
    Proof.
      intros (o1 & a1 & l1 & R1 & D1 & -> & <- & _) (o2 & a2 & l2 & R2 & D2 & -> & <- & W2).
      exists (o1 ++ o2), (a1 ++ a2), (l1 ++ l2). split; [eapply c_run_app; eassumption|]. split; [now apply fed_app|].
      split; [apply app_assoc|]. split; [apply count_app|exact W2].
    Qed.
    Lemma pushes_holds s w q s' w' q' fs n : pushes s w q s' w' q' fs n -> holds s' q' 0 [].
    Proof. now intros (? & ? & ? & _ & _ & _ & _ & H). Qed.

    Lemma pushed o s w i w' a l fs q s' n : c_call C o (cs_inner s) w = Ret (i, w', a) -> fed [o] [a] l fs -> cs_inner s' = i -> holds s' q 0 [] -> count c_panicked [a] = n ->
      pushes s w (l ++ q) s' w' q fs n.
    Proof. intros H D <- HW Hn. exists [o], [a], l. cbn [c_run]. rewrite H. cbn [bind]. split; [reflexivity|]. auto. Qed.

    Lemma perform_pushes s w q : holds s q 0 [] -> q <> [] ->
      cscr_perform_operation_v false x0 C s w = NoFuel \/
      exists s' w' r q', cscr_perform_operation_v false x0 C s w = Ret (s', w', r) /\ pushes s w q s' w' q' [] (unw r).
    Proof.
      intros HW Hne. pose proof HW as (HQ & Ho & Hi). unfold cscr_perform_operation_v, debug_assert. cbn [andb].
      rewrite Ho. unfold index. destruct (nth_error ops (cs_index s)) as [o|] eqn:En; [|apply nth_error_None in En; lia].
      cbn [bind].
      assert (Hgo : forall s1 w1 (r : caught (res unit E)) q1, pushes s w q s1 w1 q1 [] (unw r) ->
        exists s' w' r' q', match r with Done (Ok tt) => let* s := cscr_advance s1 in Ret (s, w1, Done (Ok tt)) | r => Ret (s1, w1, r) end = Ret (s', w', r') /\ pushes s w q s' w' q' [] (unw r')).
      { intros s1 w1 r q1 H. destruct r as [[[]|e]|]; [|eexists _, _, _, _; split; [reflexivity|exact H]..].
        destruct (holds_advance (pushes_holds H)) as (s' & -> & HW' & Hin). cbn [bind]. eexists _, _, _, _. split; [reflexivity|].
        exact (pushes_trans H (pushes_refl _ _ HW' Hin)). }
      destruct o as [|n|].
      - destruct q as [|x q]; [congruence|]. destruct (lq_dequeue (fixed_lawful cap) HQ) as (b & -> & HQ'). cbn [bind expect].
        unfold cs_with_buffer. cbn [cs_inner]. destruct (n_consume x (cs_inner s) w) as [->|(i & w' & r & H)]; [now left|]. rewrite H. cbn [bind]. right.
        apply (Hgo _ w' r q). change (x :: q) with ([x] ++ q).
        eapply pushed with (o := CConsume x); [cbn; rewrite H; reflexivity|repeat constructor|reflexivity| |destruct r; reflexivity]. split; [exact HQ'|auto].
      - destruct (n_expose_slots (cs_inner s) w) as [->|(i & w' & r & H)]; [now left|]. rewrite H. cbn [bind].
        assert (Hno : (forall k, r <> Done (Ok k)) -> pushes s w ([] ++ q) (cs_with_inner i s) w' q [] (unw r)).
        { intros Hr. eapply pushed with (o := CExpose); [cbn; rewrite H; reflexivity|constructor; [exact Hr|constructor]|reflexivity|exact HW|destruct r; reflexivity]. }
        destruct r as [[k|e]|].
        + unfold cs_with_inner, cs_with_buffer. cbn [cs_inner cs_buffer cs_operations cs_index].
          destruct (lawful_bulk_dequeue (fixed_lawful cap) (repeat x0 (Nat.min k n)) HQ) as (b & m & -> & Hm1 & Hm2 & Hm3 & HQ').
          cbn [bind]. rewrite repeat_length in Hm1. assert (Hl : length (firstn m q) = m) by (rewrite firstn_length; lia).
          rewrite firstn_app, firstn_firstn, Nat.min_id, Hl, Nat.sub_diag, app_nil_r.
          destruct (n_consume_slots m (v_write C (firstn m q) i) w') as [->|(i2 & w2 & r2 & H2)]; [now left|]. rewrite H2. cbn [bind]. right.
          apply (Hgo _ w2 r2 (skipn m q)).
          exists [CExpose; CWrite (firstn m q); CConsumeSlots (length (firstn m q))], [CSlots (Done (Ok k)); CWritten; CUnit r2], (firstn m q ++ []).
          split. { cbn [c_run c_call]. rewrite H. cbn [bind]. rewrite Hl, H2. reflexivity. }
          split; [apply fed_slots; [lia|constructor]|]. split; [now rewrite app_nil_r, firstn_skipn|]. split; [destruct r2; reflexivity|]. split; [exact HQ'|auto].
        + right. cbn [bind]. apply (Hgo _ w' (Done (Err e)) q). apply Hno. discriminate.
        + right. cbn [bind]. apply (Hgo _ w' Unwound q). apply Hno. discriminate.
      - destruct (n_flush (cs_inner s) w) as [->|(i & w' & r & H)]; [now left|]. rewrite H. cbn [bind]. right.
        apply (Hgo _ w' r q). change q with ([] ++ q) at 1.
        eapply pushed with (o := CFlush); [cbn; rewrite H; reflexivity|repeat constructor|reflexivity|exact HW|destruct r; reflexivity].
    Qed.

    Lemma drain_pushes fuel : forall s w q, holds s q 0 [] ->
      cscr_drain_v false x0 fuel C s w = NoFuel \/
      exists s' w' r q', cscr_drain_v false x0 fuel C s w = Ret (s', w', r) /\ pushes s w q s' w' q' [] (unw r) /\ (r = Done (Ok tt) -> q' = []).
    Proof.
      induction fuel as [|fuel IH]; intros s w q HW; [now left|]. cbn [cscr_drain_v]. rewrite (holds_len HW).
      destruct q as [|x q]; cbn [length Nat.ltb Nat.leb].
      { right. eexists _, _, _, []. split; [reflexivity|]. split; [now apply pushes_refl|reflexivity]. }
      destruct (perform_pushes w HW ltac:(discriminate)) as [->|(s1 & w1 & r & q1 & -> & HP)]; [now left|]. cbn [bind].
      destruct r as [[[]|e]|]; [|right; eexists _, _, _, _; split; [reflexivity|]; split; [exact HP|discriminate]..].
      destruct (IH s1 w1 q1 (pushes_holds HP)) as [->|(s' & w' & r' & q' & -> & H3 & H4)]; [now left|]. right. exists s', w', r', q'.
      split; [reflexivity|]. split; [|exact H4]. exact (pushes_trans HP H3).
    Qed.

    (** One call of the caller, of which [out] is accepted. *)
    Lemma call_pushes fuel o s w q k ys : holds s q k ys ->
      match o with CWrite zs => length zs <= k | CConsumeSlots n => n <= length ys | _ => True end ->
      c_call (cscr_consumer_v false x0 fuel C) o s w = NoFuel \/
      exists s' w' a ops0 ans0 l fs q',
        c_call (cscr_consumer_v false x0 fuel C) o s w = Ret (s', w', a) /\
        c_run C ops0 (cs_inner s) w = Ret (cs_inner s', w', ans0) /\ fed ops0 ans0 l fs /\ count c_panicked ans0 = (if c_panicked a then 1 else 0) /\
        holds s' q' (fst (slots_after o a k ys)) (snd (slots_after o a k ys)) /\
        q ++ match o, a with CConsume x, CUnit (Done (Ok tt)) => [x] | CConsumeSlots n, _ => firstn n ys | _, _ => [] end = l ++ q' /\
        (settled [(o, a)] = true -> q' = []) /\ subsequence fs (closings [(o, a)]).
    Proof.
      intros HW Hok. pose proof (holds_forget HW) as HW0.
      destruct o as [x|f| | |zs|n]; cbn [c_call cscr_consumer_v v_consume v_close v_flush v_expose_slots v_write v_consume_slots].
      - unfold cscr_consume_v. pose proof HW0 as (HQ & Ho & Hi). destruct (Nat.lt_ge_cases (length q) cap) as [Hlt|Hge].
        + destruct (lq_enqueue (fixed_lawful cap) x HQ Hlt) as (b & -> & HQ'). cbn [bind]. right.
          eexists _, _, _, [], [], [], [], _. split; [reflexivity|]. split; [reflexivity|]. split; [constructor|]. split; [reflexivity|]. split; [split; [exact HQ'|auto]|].
          split; [reflexivity|]. split; [discriminate|constructor].
        + rewrite (lq_enqueue_full (fixed_lawful cap) x HQ) by (destruct (holds_cap HW); lia). cbn [bind].
          change (cs_with_buffer (cs_buffer s) s) with (mk_cscr (cs_inner s) (cs_buffer s) (cs_operations s) (cs_index s)).
          destruct (@drain_pushes fuel (mk_cscr (cs_inner s) (cs_buffer s) (cs_operations s) (cs_index s)) w q HW0) as [->|(s1 & w1 & r & q1 & -> & HP & Hr)]; [now left|].
          cbn [bind]. right. destruct HP as (o1 & a1 & l & R1 & D1 & -> & K1 & HW1). cbn [cs_inner] in R1.
          destruct r as [[[]|e]|].
          * rewrite (Hr eq_refl) in *. destruct HW1 as (HQ1 & Ho1 & Hi1).
            destruct (lq_enqueue (fixed_lawful cap) x HQ1) as (b & -> & HQ'); [exact Hcap|]. cbn [bind debug_assert andb].
            eexists _, _, _, o1, a1, l, [], _. split; [reflexivity|]. split; [exact R1|]. split; [exact D1|]. split; [first [exact K1|rewrite K1; destruct r2; reflexivity]|]. split; [split; [exact HQ'|auto]|].
            split; [now rewrite app_nil_r|]. split; [discriminate|constructor].
          * eexists _, _, _, o1, a1, l, [], _. split; [reflexivity|]. split; [exact R1|]. split; [exact D1|]. split; [first [exact K1|rewrite K1; destruct r2; reflexivity]|]. split; [exact HW1|].
            split; [now rewrite app_nil_r|]. split; [discriminate|constructor].
          * eexists _, _, _, o1, a1, l, [], _. split; [reflexivity|]. split; [exact R1|]. split; [exact D1|]. split; [first [exact K1|rewrite K1; destruct r2; reflexivity]|]. split; [exact HW1|].
            split; [now rewrite app_nil_r|]. split; [discriminate|constructor].
      - unfold cscr_close_v. destruct (drain_pushes fuel w HW0) as [->|(s1 & w1 & r & q1 & -> & HP & Hr)]; [now left|]. cbn [bind].
        destruct r as [[[]|e]|].
        + rewrite (Hr eq_refl) in *. destruct (n_close f (cs_inner s1) w1) as [->|(i & w2 & r2 & H2)]; [now left|]. rewrite H2. cbn [bind]. right.
          assert (HP2 : pushes s1 w1 ([] ++ []) (cs_with_inner i s1) w2 [] [f] (unw r2)).
          { eapply pushed with (o := CClose f); [cbn; rewrite H2; reflexivity|repeat constructor|reflexivity|exact (pushes_holds HP)|destruct r2; reflexivity]. }
          destruct (pushes_trans HP HP2) as (o1 & a1 & l & R1 & D1 & Hl & K1 & HW1).
          eexists _, _, _, o1, a1, l, _, _. split; [reflexivity|]. split; [exact R1|]. split; [exact D1|]. split; [first [exact K1|rewrite K1; destruct r2; reflexivity]|]. split; [exact HW1|].
          split; [now rewrite app_nil_r|]. split; [reflexivity|exact (sub_take f sub_nil)].
        + right. destruct HP as (o1 & a1 & l & R1 & D1 & Hl & K1 & HW1).
          eexists _, _, _, o1, a1, l, _, _. split; [reflexivity|]. split; [exact R1|]. split; [exact D1|]. split; [first [exact K1|rewrite K1; destruct r2; reflexivity]|]. split; [exact HW1|].
          split; [now rewrite app_nil_r|]. split; [discriminate|repeat constructor].
        + right. destruct HP as (o1 & a1 & l & R1 & D1 & Hl & K1 & HW1).
          eexists _, _, _, o1, a1, l, _, _. split; [reflexivity|]. split; [exact R1|]. split; [exact D1|]. split; [first [exact K1|rewrite K1; destruct r2; reflexivity]|]. split; [exact HW1|].
          split; [now rewrite app_nil_r|]. split; [discriminate|repeat constructor].
      - unfold cscr_flush_v. destruct (drain_pushes fuel w HW0) as [->|(s1 & w1 & r & q1 & -> & HP & Hr)]; [now left|]. cbn [bind].
        destruct r as [[[]|e]|].
        + rewrite (Hr eq_refl) in *. destruct (n_flush (cs_inner s1) w1) as [->|(i & w2 & r2 & H2)]; [now left|]. rewrite H2. cbn [bind]. right.
          assert (HP2 : pushes s1 w1 ([] ++ []) (cs_with_inner i s1) w2 [] [] (unw r2)).
          { eapply pushed with (o := CFlush); [cbn; rewrite H2; reflexivity|repeat constructor|reflexivity|exact (pushes_holds HP)|destruct r2; reflexivity]. }
          destruct (pushes_trans HP HP2) as (o1 & a1 & l & R1 & D1 & Hl & K1 & HW1).
          eexists _, _, _, o1, a1, l, _, _. split; [reflexivity|]. split; [exact R1|]. split; [exact D1|]. split; [first [exact K1|rewrite K1; destruct r2; reflexivity]|]. split; [exact HW1|].
          split; [now rewrite app_nil_r|]. split; [reflexivity|repeat constructor].
        + right. destruct HP as (o1 & a1 & l & R1 & D1 & Hl & K1 & HW1).
          eexists _, _, _, o1, a1, l, _, _. split; [reflexivity|]. split; [exact R1|]. split; [exact D1|]. split; [first [exact K1|rewrite K1; destruct r2; reflexivity]|]. split; [exact HW1|].
          split; [now rewrite app_nil_r|]. split; [discriminate|repeat constructor].
        + right. destruct HP as (o1 & a1 & l & R1 & D1 & Hl & K1 & HW1).
          eexists _, _, _, o1, a1, l, _, _. split; [reflexivity|]. split; [exact R1|]. split; [exact D1|]. split; [first [exact K1|rewrite K1; destruct r2; reflexivity]|]. split; [exact HW1|].
          split; [now rewrite app_nil_r|]. split; [discriminate|repeat constructor].
      - unfold cscr_expose_v. rewrite (holds_len HW). destruct (holds_cap HW) as [-> Hc]. destruct (Nat.ltb_spec (length q) cap) as [Hlt|Hge].
        + destruct HW0 as (HQ & Ho & Hi). destruct (lq_expose_slots (fixed_lawful cap) HQ Hlt) as (b & m & -> & Hm & _ & HQ'). cbn [bind expect]. right.
          eexists _, _, _, [], [], [], [], q. split; [reflexivity|]. split; [reflexivity|]. split; [constructor|]. split; [reflexivity|]. split; [split; [exact HQ'|auto]|].
          split; [apply app_nil_r|]. split; [discriminate|constructor].
        + destruct (drain_pushes fuel w HW0) as [->|(s1 & w1 & r & q1 & -> & HP & Hr)]; [now left|]. cbn [bind]. right.
          destruct HP as (o1 & a1 & l & R1 & D1 & Hl & K1 & HW1).
          destruct r as [[[]|e]|].
          * rewrite (Hr eq_refl) in *. destruct HW1 as (HQ & Ho & Hi).
            destruct (lq_expose_slots (fixed_lawful cap) HQ Hcap) as (b & m & -> & Hm & _ & HQ'). cbn [bind expect].
            eexists _, _, _, o1, a1, l, _, _. split; [reflexivity|]. split; [exact R1|]. split; [exact D1|]. split; [first [exact K1|rewrite K1; destruct r2; reflexivity]|]. split; [split; [exact HQ'|auto]|].
            split; [now rewrite app_nil_r|]. split; [discriminate|repeat constructor].
          * eexists _, _, _, o1, a1, l, _, _. split; [reflexivity|]. split; [exact R1|]. split; [exact D1|]. split; [first [exact K1|rewrite K1; destruct r2; reflexivity]|]. split; [exact HW1|].
            split; [now rewrite app_nil_r|]. split; [discriminate|repeat constructor].
          * eexists _, _, _, o1, a1, l, _, _. split; [reflexivity|]. split; [exact R1|]. split; [exact D1|]. split; [first [exact K1|rewrite K1; destruct r2; reflexivity]|]. split; [exact HW1|].
            split; [now rewrite app_nil_r|]. split; [discriminate|repeat constructor].
      - right. destruct HW as (HQ & Ho & Hi). eexists _, _, _, [], [], [], [], q. split; [reflexivity|]. split; [reflexivity|]. split; [constructor|]. split; [reflexivity|].
        split; [split; [exact (lq_write (fixed_lawful cap) zs HQ Hok)|auto]|]. split; [apply app_nil_r|]. split; [discriminate|constructor].
      - right. destruct HW as (HQ & Ho & Hi). unfold cscr_consume_slots_v.
        destruct (lq_consider_enqueued (fixed_lawful cap) n HQ Hok) as (b & -> & HQ'). cbn [bind].
        eexists _, _, _, [], [], [], [], _. split; [reflexivity|]. split; [reflexivity|]. split; [constructor|]. split; [reflexivity|].
        split; [split; [exact HQ'|auto]|]. split; [reflexivity|]. split; [discriminate|constructor].
    Qed.

    Lemma use_pushes fuel calls : forall s w q k ys, holds s q k ys ->
      c_use (cscr_consumer_v false x0 fuel C) k ys calls s w = NoFuel \/
      exists s' w' h ops0 ans0 l fs kept k' ys',
        c_use (cscr_consumer_v false x0 fuel C) k ys calls s w = Ret (s', w', h) /\
        c_run C ops0 (cs_inner s) w = Ret (cs_inner s', w', ans0) /\ fed ops0 ans0 l fs /\
        q ++ accepted k ys h = l ++ kept /\ count c_panicked ans0 = count c_panicked (map snd h) /\ holds s' kept k' ys' /\ (settled h = true -> kept = []) /\ subsequence fs (closings h).
    Proof.
      induction calls as [|o calls IH]; intros s w q k ys HW; cbn [c_use].
      - right. exists s, w, [], [], [], [], [], q, k, ys. split; [reflexivity|]. split; [reflexivity|]. split; [constructor|].
        split; [apply app_nil_r|]. split; [reflexivity|]. split; [exact HW|]. split; [discriminate|constructor].
      - set (o' := match o with CWrite zs => CWrite (firstn k zs) | CConsumeSlots n => CConsumeSlots (Nat.min n (length ys)) | o => o end).
        destruct (@call_pushes fuel o' s w q k ys HW) as [->|(s1 & w1 & a & o1 & a1 & l1 & fs1 & q1 & -> & R1 & D1 & K1 & W1 & Hl1 & He1 & Hf1)].
        { subst o'. destruct o; cbn; auto; [rewrite firstn_length; lia|lia]. }
        { now left. }
        cbn [bind]. destruct (slots_after o' a k ys) as [k1 ys1] eqn:Es. cbn [fst snd] in W1.
        destruct (IH s1 w1 q1 k1 ys1 W1) as [->|(s2 & w2 & h & o2 & a2 & l2 & fs2 & kept & k2 & ys2 & E2 & R2 & D2 & Hl2 & K2 & Hc2 & He2 & Hf2)]; [now left|].
        rewrite E2. cbn [bind]. right. exists s2, w2, ((o', a) :: h), (o1 ++ o2), (a1 ++ a2), (l1 ++ l2), (fs1 ++ fs2), kept, k2, ys2.
        split; [reflexivity|]. split; [eapply c_run_app; eassumption|]. split; [now apply fed_app|].
        split; [cbn [accepted]; rewrite Es, app_assoc, Hl1, <- app_assoc, Hl2, app_assoc; reflexivity|]. split; [rewrite count_app, K1, K2; unfold count; cbn [map filter snd]; destruct (c_panicked a); reflexivity|]. split; [exact Hc2|]. split.
        + destruct h as [|c h].
          * intros H. destruct calls as [|c calls]; [|apply c_use_length in E2; discriminate].
            cbn [c_use] in E2. injection E2 as <- <-. rewrite (He1 H) in W1.
            pose proof (holds_len W1) as H1. rewrite (holds_len Hc2) in H1. now apply length_zero_iff_nil.
          * intros H. apply He2. clear - H. clearbody o'. cbn [settled] in H. destruct o', a as [[[|]|]|[[|]|]|]; exact H.
        + cbn [closings flat_map fst] in *. rewrite app_nil_r in Hf1. now apply subsequence_app.
    Qed.
  End Fixed.
End Consumer.

(** ** Objects that do not panic *)

Ltac split_all := repeat (match goal with |- context [match ?x with _ => _ end] =>
  lazymatch x with context [match _ with _ => _ end] => fail | _ => destruct x end end; cbn [ps_inner ps_buffer ps_last ps_operations ps_index
  ps_with_inner ps_with_buffer ps_with_last cs_inner cs_buffer cs_operations cs_index cs_with_inner cs_with_buffer]); try reflexivity.

Section CalmProducer.
  Context {W S T F E : Type} (dbg : bool) (P : bulk_producer S T F E).

  Lemma calm_perform_p (s : pscr S T F E) (w : W) : pscr_perform_operation_v dbg (calm_producer P) s w = calm (pscr_perform_operation dbg P s) w.
  Proof. unfold pscr_perform_operation_v, pscr_perform_operation, debug_assert, calm, bind, calm_producer; cbn [v_produce v_slurp v_expose v_consider]. unfold calm, bind. split_all. Qed.

  Lemma calm_fill_loop fuel : forall (s : pscr S T F E) (w : W),
    pscr_fill_loop_v dbg fuel (calm_producer P) s w = (let* s := pscr_fill_loop dbg fuel P s in Ret (s, w, Done tt)).
  Proof.
    induction fuel as [|fuel IH]; intros s w; [reflexivity|]. cbn [pscr_fill_loop_v pscr_fill_loop]. destruct (ps_last s); [reflexivity|].
    destruct (_ <? _); [|reflexivity]. rewrite calm_perform_p. unfold calm. destruct (pscr_perform_operation dbg P s) as [[s1 [[f|]|e]]| |]; cbn [bind]; auto.
  Qed.

  Lemma calm_fill_queue fuel (s : pscr S T F E) (w : W) : pscr_fill_queue_v dbg fuel (calm_producer P) s w = calm (pscr_fill_queue dbg fuel P s) w.
  Proof.
    unfold pscr_fill_queue_v, pscr_fill_queue, calm. rewrite calm_fill_loop. destruct (pscr_fill_loop dbg fuel P s) as [s1| |]; cbn [bind]; [|reflexivity..].
    destruct (_ =? _); reflexivity.
  Qed.

  Lemma calm_scrambler_p fuel : p_same (W := W) (pscr_producer_v dbg fuel (calm_producer P)) (calm_producer (pscr_producer dbg fuel P)).
  Proof.
    intros [| | |n] s w; cbn [p_call pscr_producer_v calm_producer pscr_producer v_produce v_slurp v_expose v_consider].
    - unfold pscr_produce_v. rewrite calm_fill_queue. change (p_produce (pscr_producer dbg fuel P) s) with (pscr_produce dbg fuel P s). unfold pscr_produce, calm. unfold bind. split_all.
    - unfold pscr_slurp_v. rewrite calm_fill_queue. change (p_slurp (pscr_producer dbg fuel P) s) with (pscr_slurp dbg fuel P s). unfold pscr_slurp, pscr_slurp_inner_v, pscr_slurp_inner. cbn [v_slurp calm_producer]. unfold calm, bind. split_all.
    - unfold pscr_expose_v. rewrite calm_fill_queue. change (p_expose (pscr_producer dbg fuel P) s) with (pscr_expose dbg fuel P s). unfold pscr_expose, calm. unfold bind. split_all.
    - change (p_consider (pscr_producer dbg fuel P) n s) with (@pscr_consider S T F E n s). unfold pscr_consider_v, pscr_consider, calm. unfold bind. split_all.
  Qed.
End CalmProducer.

Section CalmConsumer.
  Context {W S T F E : Type} (dbg : bool) (x0 : T) (C : bulk_consumer S T F E).

  Lemma calm_perform_c (s : cscr S T) (w : W) : cscr_perform_operation_v dbg x0 (calm_consumer C) s w = calm (cscr_perform_operation dbg x0 C s) w.
  Proof.
    unfold cscr_perform_operation_v, cscr_perform_operation, debug_assert, calm, bind, calm_consumer; cbn [v_consume v_flush v_expose_slots v_write v_consume_slots].
    unfold calm, bind. split_all.
  Qed.

  Lemma calm_drain fuel : forall (s : cscr S T) (w : W), cscr_drain_v dbg x0 fuel (calm_consumer C) s w = calm (cscr_drain dbg x0 fuel C s) w.
  Proof.
    induction fuel as [|fuel IH]; intros s w; [reflexivity|]. cbn [cscr_drain_v cscr_drain].
    destruct (_ <? _); [|reflexivity]. rewrite calm_perform_c. unfold calm at 1. destruct (cscr_perform_operation dbg x0 C s) as [[s1 [[]|e]]| |]; cbn [bind]; auto.
  Qed.

  Lemma calm_scrambler_c fuel : c_same (W := W) (cscr_consumer_v dbg x0 fuel (calm_consumer C)) (calm_consumer (cscr_consumer dbg x0 fuel C)).
  Proof.
    intros [x|f| | |ys|n] s w; cbn [c_call cscr_consumer_v calm_consumer cscr_consumer v_consume v_close v_flush v_expose_slots v_write v_consume_slots];
      [change (c_consume (cscr_consumer dbg x0 fuel C) x s) with (cscr_consume dbg x0 fuel C x s)
      |change (c_close (cscr_consumer dbg x0 fuel C) f s) with (cscr_close dbg x0 fuel C f s)
      |change (c_flush (cscr_consumer dbg x0 fuel C) s) with (cscr_flush dbg x0 fuel C s)
      |change (c_expose (cscr_consumer dbg x0 fuel C) s) with (cscr_expose dbg x0 fuel C s)
      |
      |change (c_consume_slots (cscr_consumer dbg x0 fuel C) n s) with (@cscr_consume_slots S T E n s)].
    - unfold cscr_consume_v, cscr_consume. destruct (q_enqueue _ _ _) as [[b [y|]]| |]; cbn [bind calm]; try reflexivity.
      rewrite calm_drain. unfold debug_assert, calm, bind. split_all.
    - unfold cscr_close_v, cscr_close. rewrite calm_drain. cbn [v_close calm_consumer]. unfold calm, bind. split_all.
    - unfold cscr_flush_v, cscr_flush. rewrite calm_drain. cbn [v_flush calm_consumer]. unfold calm, bind. split_all.
    - unfold cscr_expose_v, cscr_expose. destruct (_ <? _).
      + unfold calm, bind. split_all.
      + rewrite calm_drain. unfold calm, bind. split_all.
    - reflexivity.
    - unfold cscr_consume_slots_v, cscr_consume_slots, calm, bind. split_all.
  Qed.
End CalmConsumer.

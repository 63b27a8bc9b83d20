(** Proofs about objects shared behind a mutex. *)
From Coq Require Import Bool List Arith Lia.
From Coq.Init Require Import Byte.
From Verif Require Import Prelude ListFacts Traits Contracts ContractFacts BasicModel BasicSpec BasicProofs AdaptorSpec CodecModel CodecSpec CodecProofs
  SharedModel SharedSpec.
Import ListNotations.
Set Implicit Arguments.

Local Ltac four := refine (conj _ (conj _ (conj _ _))).

(** ** Programs *)
Lemma run_bind : forall S X Y (p : prog S X) (k : X -> prog S Y) s,
  run_prog (prog_bind p k) s = let* (s', x) := run_prog p s in run_prog (k x) s'.
Proof.
  intros S X Y. fix IH 1. intros [x|f] k s; cbn; [reflexivity|].
  destruct (f s) as [[s' p']| |]; cbn; try reflexivity. apply IH.
Qed.

Lemma run_call : forall S X (f : S -> outcome (S * X)) s, run_prog (prog_call f) s = f s.
Proof. intros. cbn. destruct (f s) as [[s' x]| |]; reflexivity. Qed.

Lemma in_turn_app : forall S X (fs gs : list (S -> outcome (S * X))) s xs s1,
  in_turn fs s = (xs, Ret s1) ->
  in_turn (fs ++ gs) s = (xs ++ fst (in_turn gs s1), snd (in_turn gs s1)).
Proof.
  induction fs as [|f fs IH]; intros gs s xs s1 H; cbn in *.
  - injection H as <- <-. now destruct (in_turn gs s).
  - destruct (f s) as [[s' x]| |]; try discriminate.
    destruct (in_turn fs s') as [ys o] eqn:E1. injection H as <- ->. rewrite (IH gs _ _ _ E1). reflexivity.
Qed.

Lemma in_turn_split : forall S X (fs : list (S -> outcome (S * X))) f gs s xs x ys s1,
  in_turn (fs ++ f :: gs) s = (xs ++ x :: ys, Ret s1) -> length xs = length fs ->
  exists s2 s3, in_turn fs s = (xs, Ret s2) /\ f s2 = Ret (s3, x).
Proof.
  induction fs as [|g fs IH]; intros f gs s xs x ys s1 H Hl; destruct xs as [|x0 xs]; try discriminate.
  - cbn in *. destruct (f s) as [[s3 x1]| |] eqn:E1; try discriminate. injection H as <- _ _. exists s, s3. auto.
  - cbn in *. destruct (g s) as [[s3 x1]| |] eqn:E1; try discriminate.
    destruct (in_turn (fs ++ f :: gs) s3) as [zs o] eqn:E2. cbn in H. injection H as <- -> ->.
    destruct (IH _ _ _ _ _ _ _ E2) as (s4 & s5 & E3 & E4); [lia|]. rewrite E3. exists s4, s5. auto.
Qed.

(** ** [update] *)
Lemma nth_error_update : forall A (xs : list A) i x j y, nth_error xs i = Some y ->
  nth_error (update i x xs) j = if j =? i then Some x else nth_error xs j.
Proof.
  induction xs as [|z xs IH]; intros [|i] x [|j] y H; cbn in *; try discriminate; auto.
  rewrite (IH _ _ _ _ H). reflexivity.
Qed.

Lemma length_update : forall A (xs : list A) i x, length (update i x xs) = length xs.
Proof. induction xs as [|z xs IH]; intros [|i] x; cbn; auto. Qed.

Lemma of_task_app : forall A i (h1 h2 : list (nat * A)), of_task i (h1 ++ h2) = of_task i h1 ++ of_task i h2.
Proof. intros. unfold of_task. now rewrite filter_app, map_app. Qed.

Section Mutex.
  Context {S X L K : Type} (sem : L -> K -> L * body S X).

  Definition running (t : task S X L K) : Prop := match tk_now t with Running _ _ _ => True | _ => False end.

  Definition log_ok (e : L * K * option X) : Prop :=
    match e with
    | (l, c, Some x) => match snd (sem l c) with Local x' => x = x' | Locked _ => True end
    | (_, _, None) => True
    end.

  Definition now_ok (t : task S X L K) : Prop :=
    match tk_now t with
    | Idle => True
    | Waiting l c p => snd (sem l c) = Locked p
    | Running l c _ => exists p, snd (sem l c) = Locked p
    end.

  Definition task_ok (i : nat) (t : task S X L K) (lcs : L * list K) (hist : list (nat * (L * K * X))) : Prop :=
    with_locals sem (fst lcs) (snd lcs) =
      map fst (tk_log t) ++ pending t ++ with_locals sem (tk_local t) (tk_calls t) /\
    of_task i hist = locked_calls sem (tk_log t) /\ Forall log_ok (tk_log t) /\ now_ok t.

  Definition lock_ok (y : system S X L K) : Prop :=
    match sy_holder y with
    | None => sy_shared y = sy_base y /\ forall i t, nth_error (sy_tasks y) i = Some t -> ~ running t
    | Some i =>
        (exists t l c p, nth_error (sy_tasks y) i = Some t /\ tk_now t = Running l c p /\
           run_prog p (sy_shared y) = call_alone sem (l, c) (sy_base y)) /\
        forall j t, nth_error (sy_tasks y) j = Some t -> j <> i -> ~ running t
    end.

  Definition sys_ok (s0 : S) (tasks : list (L * list K)) (y : system S X L K) : Prop :=
    in_turn (map (fun e => call_alone sem (fst (snd e))) (sy_hist y)) s0 =
      (map (fun e => snd (snd e)) (sy_hist y), Ret (sy_base y)) /\
    lock_ok y /\
    length (sy_tasks y) = length tasks /\
    forall i t, nth_error (sy_tasks y) i = Some t ->
      exists lcs, nth_error tasks i = Some lcs /\ task_ok i t lcs (sy_hist y).

  Lemma sys_ok_new : forall s0 tasks, sys_ok s0 tasks (system_new s0 tasks).
  Proof.
    intros s0 tasks. unfold sys_ok, system_new. cbn. four; [reflexivity| |now rewrite map_length|].
    - unfold lock_ok. cbn. split; [reflexivity|]. intros i t H. rewrite nth_error_map in H.
      destruct (nth_error tasks i) as [lcs|]; [|discriminate]. injection H as <-. intros [].
    - intros i t H. rewrite nth_error_map in H. destruct (nth_error tasks i) as [lcs|]; [|discriminate].
      injection H as <-. exists lcs. split; auto. unfold task_ok. cbn. auto.
  Qed.

  (** The other tasks do not notice. *)
  Lemma tasks_ok_update : forall tasks (ts : list (task S X L K)) i t t' hist hist',
    (forall j u, nth_error ts j = Some u -> exists lcs, nth_error tasks j = Some lcs /\ task_ok j u lcs hist) ->
    nth_error ts i = Some t ->
    (forall lcs, nth_error tasks i = Some lcs -> task_ok i t lcs hist -> task_ok i t' lcs hist') ->
    (forall j, j <> i -> of_task j hist' = of_task j hist) ->
    forall j u, nth_error (update i t' ts) j = Some u ->
    exists lcs, nth_error tasks j = Some lcs /\ task_ok j u lcs hist'.
  Proof.
    intros tasks ts i t t' hist hist' HT Hi Ht Hj j u Hu. rewrite (@nth_error_update _ _ _ _ _ _ Hi) in Hu.
    destruct (Nat.eqb_spec j i) as [->|Hne].
    - injection Hu as <-. destruct (HT _ _ Hi) as (lcs & E1 & OK). exists lcs. split; [exact E1|]. exact (Ht _ E1 OK).
    - destruct (HT _ _ Hu) as (lcs & E1 & OK). exists lcs. split; auto. destruct OK as (H1 & H2 & H3 & H4).
      unfold task_ok. rewrite Hj by auto. auto.
  Qed.

  Lemma not_running_update : forall (ts : list (task S X L K)) i t t' (Q : nat -> Prop),
    (forall j u, nth_error ts j = Some u -> Q j -> ~ running u) -> nth_error ts i = Some t -> (Q i -> ~ running t') ->
    forall j u, nth_error (update i t' ts) j = Some u -> Q j -> ~ running u.
  Proof.
    intros ts i t t' Q H Hi Ht j u Hu HQ. rewrite (@nth_error_update _ _ _ _ _ _ Hi) in Hu.
    destruct (Nat.eqb_spec j i) as [->|Hne]; [|eauto]. injection Hu as <-. auto.
  Qed.

  (** A step of task [i] that leaves the lock alone. *)
  Lemma lock_ok_update : forall y i t t' hist, lock_ok y -> nth_error (sy_tasks y) i = Some t ->
    ~ running t -> ~ running t' ->
    lock_ok (mk_system (sy_shared y) (sy_holder y) (update i t' (sy_tasks y)) hist (sy_base y)).
  Proof.
    intros y i t t' hist HL Hi Hr Hr'. unfold lock_ok in *. cbn. destruct (sy_holder y) as [h|].
    - destruct HL as [(u & l & c & p & E1 & E2 & E3) HO]. split.
      + assert (h <> i).
        { intros ->. rewrite E1 in Hi. injection Hi as ->. apply Hr. unfold running. now rewrite E2. }
        exists u, l, c, p. splits; auto. rewrite (@nth_error_update _ _ _ _ _ _ Hi).
        destruct (Nat.eqb_spec h i); [contradiction|auto].
      + intros j u' Hu Hne. refine (@not_running_update _ i t t' (fun j => j <> h) HO Hi _ _ _ Hu Hne). auto.
    - destruct HL as [E1 HO]. split; auto. intros j u Hu.
      refine (@not_running_update _ i t t' (fun _ => True) _ Hi _ _ _ Hu Logic.I); eauto.
  Qed.

  Lemma holder_running : forall y i t, lock_ok y -> nth_error (sy_tasks y) i = Some t -> running t ->
    sy_holder y = Some i.
  Proof.
    intros y i t HL Hi Hr. unfold lock_ok in HL. destruct (sy_holder y) as [h|].
    - destruct (Nat.eq_dec i h) as [->|Hne]; auto. destruct HL as [_ HO]. exfalso. now apply (HO _ _ Hi Hne).
    - exfalso. destruct HL as [_ HO]. now apply (HO _ _ Hi).
  Qed.

  Lemma locked_calls_app : forall l1 l2, locked_calls sem (l1 ++ l2) = locked_calls sem l1 ++ locked_calls sem l2.
  Proof. intros. apply flat_map_app. Qed.

  Lemma sys_step_ok : forall s0 tasks y ev y', sys_ok s0 tasks y -> sys_step sem ev y = Ret y' ->
    (forall i, ev = Drop i -> sy_holder y <> Some i) -> sys_ok s0 tasks y'.
  Proof.
    intros s0 tasks y ev y' (HI & HL & Hlen & HT) H HD. destruct ev as [i|i]; cbn in H.
    - destruct (nth_error (sy_tasks y) i) as [t|] eqn:Hi; [|injection H as <-; now repeat split].
      destruct (tk_now t) as [|l c p|l c [x|f]] eqn:Hn.
      + destruct (tk_calls t) as [|c cs] eqn:Hc; [injection H as <-; now repeat split|].
        assert (Hr : ~ running t) by (unfold running; now rewrite Hn).
        destruct (sem (tk_local t) c) as [l' [x|p]] eqn:Hs; injection H as <-; unfold sys_ok; cbn; rewrite length_update; four; auto.
        * apply lock_ok_update with (t := t); auto.
        * apply (@tasks_ok_update tasks _ i t _ (sy_hist y)); auto.
          intros lcs E1 (H1 & H2 & H3 & H4). unfold task_ok. unfold pending in *. rewrite Hn in *. rewrite Hc in H1. cbn [tk_now tk_log tk_calls tk_local fst snd with_locals app] in *. four; auto; try exact Logic.I.
          -- rewrite H1, map_app, <- app_assoc. cbn. now rewrite Hs.
          -- rewrite locked_calls_app. cbn. rewrite Hs. cbn. now rewrite app_nil_r.
          -- apply Forall_app. split; auto. constructor; auto. cbn. now rewrite Hs.
        * apply lock_ok_update with (t := t); auto.
        * apply (@tasks_ok_update tasks _ i t _ (sy_hist y)); auto.
          intros lcs E1 (H1 & H2 & H3 & H4). unfold task_ok, now_ok. unfold pending in *. rewrite Hn in *. rewrite Hc in H1. cbn [tk_now tk_log tk_calls tk_local fst snd with_locals app] in *. four; auto; try exact Logic.I.
          -- rewrite H1. now rewrite Hs.
          -- now rewrite Hs.
      + destruct (sy_holder y) as [h|] eqn:Hh; injection H as <-; [now repeat split|].
        assert (Hok : now_ok t) by (destruct (HT _ _ Hi) as (lcs & _ & _ & _ & _ & H4); auto).
        unfold lock_ok in HL. rewrite Hh in HL. destruct HL as [E1 HO].
        unfold sys_ok; cbn; rewrite length_update; four; auto.
        * now rewrite E1.
        * unfold lock_ok. cbn. split.
          -- eexists; exists l, c, p. splits; [rewrite (@nth_error_update _ _ _ _ _ _ Hi), Nat.eqb_refl; reflexivity|reflexivity|].
             unfold call_alone. cbn. unfold now_ok in Hok. rewrite Hn in Hok. now rewrite Hok.
          -- intros j u Hu Hne. refine (@not_running_update _ i t _ (fun j => j <> i) _ Hi _ _ _ Hu Hne); [eauto|congruence].
        * apply (@tasks_ok_update tasks _ i t _ (sy_hist y)); auto.
          intros lcs E2 (H1 & H2 & H3 & H4). unfold task_ok, now_ok in *. unfold pending in *. rewrite Hn in *. cbn [tk_now tk_log tk_calls tk_local fst snd with_locals app] in *. four; eauto; try exact Logic.I.
      + injection H as <-.
        assert (Hh : sy_holder y = Some i) by (apply holder_running with (2 := Hi); [exact HL|unfold running; now rewrite Hn]).
        unfold lock_ok in HL. rewrite Hh in HL. destruct HL as [(t' & l' & c' & p' & E1 & E2 & E3) HO].
        rewrite Hi in E1. injection E1 as <-. rewrite Hn in E2. injection E2 as <- <- <-. cbn in E3.
        unfold sys_ok; cbn; rewrite length_update; four; auto.
        * rewrite !map_app. rewrite (@in_turn_app _ _ _ _ _ _ _ HI). cbn [map in_turn fst snd]. rewrite <- E3. reflexivity.
        * unfold lock_ok. cbn. split; auto. intros j u Hu.
          rewrite (@nth_error_update _ _ _ _ _ _ Hi) in Hu. destruct (Nat.eqb_spec j i) as [->|Hne]; [injection Hu as <-; intros []|eauto].
        * apply (@tasks_ok_update tasks _ i t _ (sy_hist y)); auto.
          -- intros lcs E2 (H1 & H2 & H3 & H4).
             unfold task_ok, now_ok. unfold pending in *. rewrite Hn in *. cbn [tk_now tk_log tk_calls tk_local fst snd with_locals app] in *. four; auto; try exact Logic.I.
             ++ rewrite H1, map_app, <- app_assoc. reflexivity.
             ++ rewrite locked_calls_app, of_task_app, H2. cbn. unfold now_ok in H4. rewrite Hn in H4. destruct H4 as (p0 & ->).
                unfold of_task. cbn. rewrite Nat.eqb_refl. reflexivity.
             ++ apply Forall_app. split; auto. constructor; auto. cbn. unfold now_ok in H4. rewrite Hn in H4. destruct H4 as (p0 & ->). exact Logic.I.
          -- intros j Hne. rewrite of_task_app. unfold of_task at 2. cbn. destruct (Nat.eqb_spec i j); [congruence|]. cbn. apply app_nil_r.
      + destruct (f (sy_shared y)) as [[s' p']| |] eqn:Ef; try discriminate. cbn in H. injection H as <-.
        assert (Hh : sy_holder y = Some i) by (apply holder_running with (2 := Hi); [exact HL|unfold running; now rewrite Hn]).
        unfold lock_ok in HL. rewrite Hh in HL. destruct HL as [(t' & l' & c' & p1 & E1 & E2 & E3) HO].
        rewrite Hi in E1. injection E1 as <-. rewrite Hn in E2. injection E2 as <- <- <-. cbn in E3. rewrite Ef in E3.
        unfold sys_ok; cbn; rewrite length_update; four; auto.
        * unfold lock_ok. cbn. rewrite Hh. split.
          -- eexists; exists l, c, p'. splits; [rewrite (@nth_error_update _ _ _ _ _ _ Hi), Nat.eqb_refl; reflexivity|reflexivity|exact E3].
          -- intros j u Hu Hne. refine (@not_running_update _ i t _ (fun j => j <> i) HO Hi _ _ _ Hu Hne). congruence.
        * apply (@tasks_ok_update tasks _ i t _ (sy_hist y)); auto.
          intros lcs E2 (H1 & H2 & H3 & H4). unfold task_ok, now_ok in *. unfold pending in *. rewrite Hn in *. cbn [tk_now tk_log tk_calls tk_local fst snd with_locals app] in *. four; eauto; try exact Logic.I.
    - destruct (nth_error (sy_tasks y) i) as [t|] eqn:Hi; [|injection H as <-; now repeat split].
      destruct (tk_now t) as [|l c p|l c p] eqn:Hn; [injection H as <-; now repeat split| |].
      + injection H as <-. assert (Hr : ~ running t) by (unfold running; now rewrite Hn).
        unfold sys_ok; cbn; rewrite length_update; four; auto.
        * apply lock_ok_update with (t := t); auto.
        * apply (@tasks_ok_update tasks _ i t _ (sy_hist y)); auto.
          intros lcs E1 (H1 & H2 & H3 & H4). unfold task_ok, now_ok in *. unfold pending in *. rewrite Hn in *. cbn [tk_now tk_log tk_calls tk_local fst snd with_locals app] in *. four; auto; try exact Logic.I.
          -- rewrite H1, map_app, <- app_assoc. reflexivity.
          -- rewrite locked_calls_app. cbn. now rewrite app_nil_r.
          -- apply Forall_app. split; auto. constructor; auto. exact Logic.I.
      + exfalso. apply (HD i eq_refl). apply holder_running with (2 := Hi); [exact HL|unfold running; now rewrite Hn].
  Qed.

  Lemma careful_ok : forall s0 tasks y evs y', careful sem y evs y' -> sys_ok s0 tasks y -> sys_ok s0 tasks y'.
  Proof. intros s0 tasks y evs y' H. induction H; auto. intros OK. eauto using sys_step_ok. Qed.

  (** *** Any execution, also one that drops a call that has the lock. *)
  Definition any_ok (tasks : list (L * list K)) (y : system S X L K) : Prop :=
    (forall i, sy_holder y = Some i <-> exists t, nth_error (sy_tasks y) i = Some t /\ running t) /\
    length (sy_tasks y) = length tasks /\
    forall i t, nth_error (sy_tasks y) i = Some t ->
      exists lcs, nth_error tasks i = Some lcs /\ task_ok i t lcs (sy_hist y).

  Lemma any_ok_new : forall s0 tasks, any_ok tasks (system_new s0 tasks).
  Proof.
    intros s0 tasks. destruct (sys_ok_new s0 tasks) as (_ & _ & H3 & H4). split; [|split; auto].
    intros i. cbn. split; [discriminate|]. intros (t & H & Hr). rewrite nth_error_map in H.
    destruct (nth_error tasks i); [|discriminate]. injection H as <-. destruct Hr.
  Qed.

  Lemma holder_update : forall (y : system S X L K) i t t' h, nth_error (sy_tasks y) i = Some t ->
    (forall j, sy_holder y = Some j <-> exists t, nth_error (sy_tasks y) j = Some t /\ running t) ->
    (forall j, j <> i -> h = Some j <-> sy_holder y = Some j) -> (h = Some i <-> running t') ->
    forall j, h = Some j <-> exists u, nth_error (update i t' (sy_tasks y)) j = Some u /\ running u.
  Proof.
    intros y i t t' h Hi HH Hj H' j. destruct (Nat.eq_dec j i) as [->|Hne].
    - rewrite H'. split.
      + intros Hr. exists t'. rewrite (@nth_error_update _ _ _ _ _ _ Hi), Nat.eqb_refl. auto.
      + intros (u & Hu & Hr). rewrite (@nth_error_update _ _ _ _ _ _ Hi), Nat.eqb_refl in Hu. now injection Hu as ->.
    - rewrite Hj, HH by auto. rewrite (@nth_error_update _ _ _ _ _ _ Hi).
      destruct (Nat.eqb_spec j i); [congruence|]. reflexivity.
  Qed.

  Lemma sys_step_any : forall tasks y ev y', any_ok tasks y -> sys_step sem ev y = Ret y' -> any_ok tasks y'.
  Proof.
    intros tasks y ev y' (HH & Hlen & HT) H.
    assert (HRun : forall i t, nth_error (sy_tasks y) i = Some t -> running t -> forall j, sy_holder y = Some j <-> j = i).
    { intros i t Hi Hr j. assert (E : sy_holder y = Some i) by (apply HH; eauto). rewrite E. split; [now injection 1|now intros ->]. }
    assert (HNot : forall i t, nth_error (sy_tasks y) i = Some t -> ~ running t -> sy_holder y <> Some i).
    { intros i t Hi Hr E. apply HH in E. destruct E as (u & E & Hu). rewrite Hi in E. injection E as <-. auto. }
    destruct ev as [i|i]; cbn in H.
    - destruct (nth_error (sy_tasks y) i) as [t|] eqn:Hi; [|injection H as <-; exact (conj HH (conj Hlen HT))].
      destruct (tk_now t) as [|l c p|l c [x|f]] eqn:Hn.
      + destruct (tk_calls t) as [|c cs] eqn:Hc; [injection H as <-; exact (conj HH (conj Hlen HT))|].
        assert (Hr : ~ running t) by (unfold running; now rewrite Hn).
        destruct (sem (tk_local t) c) as [l' [x|p]] eqn:Hs; injection H as <-; unfold any_ok; cbn [sy_holder sy_tasks sy_hist]; rewrite length_update; (split; [|split; [exact Hlen|]]).
        * apply holder_update with (t := t); [auto|auto|reflexivity|cbn; split; [intros E; exfalso; exact (HNot _ _ Hi Hr E)|intros []]].
        * apply (@tasks_ok_update tasks _ i t _ (sy_hist y)); auto.
          intros lcs E1 (H1 & H2 & H3 & H4). unfold task_ok. unfold pending in *. rewrite Hn in *. rewrite Hc in H1. cbn [tk_now tk_log tk_calls tk_local fst snd with_locals app] in *. four; auto; try exact Logic.I.
          -- rewrite H1, map_app, <- app_assoc. cbn. now rewrite Hs.
          -- rewrite locked_calls_app. cbn. rewrite Hs. cbn. now rewrite app_nil_r.
          -- apply Forall_app. split; auto. constructor; auto. cbn. now rewrite Hs.
        * apply holder_update with (t := t); [auto|auto|reflexivity|cbn; split; [intros E; exfalso; exact (HNot _ _ Hi Hr E)|intros []]].
        * apply (@tasks_ok_update tasks _ i t _ (sy_hist y)); auto.
          intros lcs E1 (H1 & H2 & H3 & H4). unfold task_ok, now_ok. unfold pending in *. rewrite Hn in *. rewrite Hc in H1. cbn [tk_now tk_log tk_calls tk_local fst snd with_locals app] in *. four; auto; try exact Logic.I.
          -- rewrite H1. now rewrite Hs.
          -- now rewrite Hs.
      + destruct (sy_holder y) as [h|] eqn:Hh; injection H as <-; [unfold any_ok; rewrite Hh; exact (conj HH (conj Hlen HT))|].
        unfold any_ok; cbn [sy_holder sy_tasks sy_hist]; rewrite length_update; (split; [|split; [exact Hlen|]]).
        * apply holder_update with (t := t); auto.
          -- intros j. rewrite Hh. auto.
          -- intros j Hne. rewrite Hh. split; [congruence|discriminate].
          -- split; [intros _; exact Logic.I|reflexivity].
        * apply (@tasks_ok_update tasks _ i t _ (sy_hist y)); auto.
          intros lcs E2 (H1 & H2 & H3 & H4). unfold task_ok, now_ok in *. unfold pending in *. rewrite Hn in *. cbn [tk_now tk_log tk_calls tk_local fst snd with_locals app] in *. four; eauto; try exact Logic.I.
      + injection H as <-. assert (Hr : running t) by (unfold running; now rewrite Hn).
        unfold any_ok; cbn [sy_holder sy_tasks sy_hist]; rewrite length_update; (split; [|split; [exact Hlen|]]).
        * apply holder_update with (t := t); auto.
          -- intros j Hne. rewrite (HRun _ _ Hi Hr). split; [discriminate|congruence].
          -- split; [discriminate|intros []].
        * apply (@tasks_ok_update tasks _ i t _ (sy_hist y)); auto.
          -- intros lcs E2 (H1 & H2 & H3 & H4).
             unfold task_ok, now_ok. unfold pending in *. rewrite Hn in *. cbn [tk_now tk_log tk_calls tk_local fst snd with_locals app] in *. four; auto; try exact Logic.I.
             ++ rewrite H1, map_app, <- app_assoc. reflexivity.
             ++ rewrite locked_calls_app, of_task_app, H2. cbn. unfold now_ok in H4. rewrite Hn in H4. destruct H4 as (p0 & ->).
                unfold of_task. cbn. rewrite Nat.eqb_refl. reflexivity.
             ++ apply Forall_app. split; auto. constructor; auto. cbn. unfold now_ok in H4. rewrite Hn in H4. destruct H4 as (p0 & ->). exact Logic.I.
          -- intros j Hne. rewrite of_task_app. unfold of_task at 2. cbn. destruct (Nat.eqb_spec i j); [congruence|]. cbn. apply app_nil_r.
      + destruct (f (sy_shared y)) as [[s' p']| |] eqn:Ef; try discriminate. cbn in H. injection H as <-.
        assert (Hr : running t) by (unfold running; now rewrite Hn).
        unfold any_ok; cbn [sy_holder sy_tasks sy_hist]; rewrite length_update; (split; [|split; [exact Hlen|]]).
        * apply holder_update with (t := t); auto; [reflexivity|].
          split; [intros _; exact Logic.I|intros _; now apply (HRun _ _ Hi Hr)].
        * apply (@tasks_ok_update tasks _ i t _ (sy_hist y)); auto.
          intros lcs E2 (H1 & H2 & H3 & H4). unfold task_ok, now_ok in *. unfold pending in *. rewrite Hn in *. cbn [tk_now tk_log tk_calls tk_local fst snd with_locals app] in *. four; eauto; try exact Logic.I.
    - destruct (nth_error (sy_tasks y) i) as [t|] eqn:Hi; [|injection H as <-; exact (conj HH (conj Hlen HT))].
      destruct (tk_now t) as [|l c p|l c p] eqn:Hn; [injection H as <-; exact (conj HH (conj Hlen HT))| |].
      + injection H as <-. assert (Hr : ~ running t) by (unfold running; now rewrite Hn).
        unfold any_ok; cbn [sy_holder sy_tasks sy_hist]; rewrite length_update; (split; [|split; [exact Hlen|]]).
        * apply holder_update with (t := t); [auto|auto|reflexivity|cbn; split; [intros E; exfalso; exact (HNot _ _ Hi Hr E)|intros []]].
        * apply (@tasks_ok_update tasks _ i t _ (sy_hist y)); auto.
          intros lcs E1 (H1 & H2 & H3 & H4). unfold task_ok, now_ok in *. unfold pending in *. rewrite Hn in *. cbn [tk_now tk_log tk_calls tk_local fst snd with_locals app] in *. four; auto; try exact Logic.I.
          -- rewrite H1, map_app, <- app_assoc. reflexivity.
          -- rewrite locked_calls_app. cbn. now rewrite app_nil_r.
          -- apply Forall_app. split; auto. constructor; auto. exact Logic.I.
      + injection H as <-. assert (Hr : running t) by (unfold running; now rewrite Hn).
        unfold any_ok; cbn [sy_holder sy_tasks sy_hist]; rewrite length_update; (split; [|split; [exact Hlen|]]).
        * apply holder_update with (t := t); auto.
          -- intros j Hne. rewrite (HRun _ _ Hi Hr). split; [discriminate|congruence].
          -- split; [discriminate|intros []].
        * apply (@tasks_ok_update tasks _ i t _ (sy_hist y)); auto.
          intros lcs E1 (H1 & H2 & H3 & H4). unfold task_ok, now_ok in *. unfold pending in *. rewrite Hn in *. cbn [tk_now tk_log tk_calls tk_local fst snd with_locals app] in *. four; auto; try exact Logic.I.
          -- rewrite H1, map_app, <- app_assoc. reflexivity.
          -- rewrite locked_calls_app. cbn. now rewrite app_nil_r.
          -- apply Forall_app. split; auto. constructor; auto. exact Logic.I.
  Qed.

  Lemma sys_run_any : forall tasks evs y y', any_ok tasks y -> sys_run sem evs y = Ret y' -> any_ok tasks y'.
  Proof.
    intros tasks. induction evs as [|ev evs IH]; intros y y' OK H; cbn in H; [now injection H as <-|].
    destruct (sys_step sem ev y) as [y1| |] eqn:E; try discriminate. cbn in H. eauto using sys_step_any.
  Qed.

  (** Dropping a call changes nothing but the task, and frees the lock if the call had it. *)
  Lemma sys_drop : forall y i t, nth_error (sy_tasks y) i = Some t ->
    exists y', sys_step sem (Drop i) y = Ret y' /\ sy_shared y' = sy_shared y /\ sy_hist y' = sy_hist y /\ sy_base y' = sy_base y /\
      sy_holder y' = match tk_now t with Running _ _ _ => None | _ => sy_holder y end /\
      (forall j, j <> i -> nth_error (sy_tasks y') j = nth_error (sy_tasks y) j) /\
      nth_error (sy_tasks y') i =
        Some (mk_task (tk_local t) (tk_calls t) Idle (tk_log t ++ map (fun lc => (lc, None)) (pending t))).
  Proof.
    intros y i [l cs now log] Hi. cbn. rewrite Hi. unfold pending. cbn.
    destruct now as [|l' c p|l' c p]; eexists; (split; [reflexivity|]); cbn; splits; auto;
      try (rewrite (@nth_error_update _ _ _ _ _ _ Hi), Nat.eqb_refl; reflexivity);
      try (intros j Hne; rewrite (@nth_error_update _ _ _ _ _ _ Hi); destruct (Nat.eqb_spec j i); [congruence|reflexivity]).
    rewrite app_nil_r. exact Hi.
  Qed.

  (** Nothing fails that would not fail without the other tasks. *)
  Lemma sys_step_fails : forall s0 tasks y ev, sys_ok s0 tasks y ->
    (forall y', sys_step sem ev y <> Ret y') ->
    exists i t l c p, sy_holder y = Some i /\ nth_error (sy_tasks y) i = Some t /\ tk_now t = Running l c p /\
      forall s x, call_alone sem (l, c) (sy_base y) <> Ret (s, x).
  Proof.
    intros s0 tasks y ev (HI & HL & Hlen & HT) H. destruct ev as [i|i]; cbn in H.
    - destruct (nth_error (sy_tasks y) i) as [t|] eqn:Hi; [|exfalso; eapply H; reflexivity].
      destruct (tk_now t) as [|l c p|l c [x|f]] eqn:Hn; try (exfalso; eapply H; reflexivity).
      + destruct (tk_calls t); [exfalso; eapply H; reflexivity|].
        destruct (sem (tk_local t) k) as [l' [x|p]]; exfalso; eapply H; reflexivity.
      + destruct (sy_holder y); exfalso; eapply H; reflexivity.
      + assert (Hh : sy_holder y = Some i) by (apply holder_running with (2 := Hi); [exact HL|unfold running; now rewrite Hn]).
        exists i, t, l, c, (Step f). splits; auto.
        unfold lock_ok in HL. rewrite Hh in HL. destruct HL as [(t' & l' & c' & p1 & E1 & E2 & E3) HO].
        rewrite Hi in E1. injection E1 as <-. rewrite Hn in E2. injection E2 as <- <- <-. cbn in E3. intros s x E4. rewrite E4 in E3.
        destruct (f (sy_shared y)) as [[s' p']| |]; try discriminate. eapply H. reflexivity.
    - destruct (nth_error (sy_tasks y) i) as [t|] eqn:Hi; [|exfalso; eapply H; reflexivity].
      destruct (tk_now t); exfalso; eapply H; reflexivity.
  Qed.

  (** ** No deadlock *)
  Definition weight (t : task S X L K) : nat :=
    length (tk_calls t) + match tk_now t with Idle => 0 | _ => 1 end.
  Fixpoint total (ts : list (task S X L K)) : nat :=
    match ts with [] => 0 | t :: ts => weight t + total ts end.
  Definition outstanding (y : system S X L K) : nat := total (sy_tasks y).

  Lemma outstanding_update : forall ts i t t', nth_error ts i = Some t ->
    total (update i t' ts) + weight t = total ts + weight t'.
  Proof.
    induction ts as [|u ts IH]; intros [|i] t t' H; cbn in *; try discriminate.
    - injection H as ->. lia.
    - specialize (IH _ _ t' H). lia.
  Qed.

  Lemma polls_careful : forall evs y y', Forall is_poll evs -> sys_run sem evs y = Ret y' -> careful sem y evs y'.
  Proof.
    induction evs as [|ev evs IH]; intros y y' HF H; cbn in H.
    - injection H as <-. constructor.
    - inversion HF; subst. destruct (sys_step sem ev y) as [y1| |] eqn:E1; try discriminate. cbn in H.
      econstructor; [exact E1|intros i ->; contradiction|auto].
  Qed.

  Lemma sys_run_app : forall evs1 evs2 y,
    sys_run sem (evs1 ++ evs2) y = let* y1 := sys_run sem evs1 y in sys_run sem evs2 y1.
  Proof.
    induction evs1 as [|ev evs1 IH]; intros evs2 y; cbn; [reflexivity|].
    destruct (sys_step sem ev y) as [y1| |]; cbn; auto.
  Qed.

  Lemma finish_running : forall p y i t l c, nth_error (sy_tasks y) i = Some t -> tk_now t = Running l c p ->
    exists evs, Forall is_poll evs /\
      ((forall y', sys_run sem evs y <> Ret y') \/
       exists y', sys_run sem evs y = Ret y' /\ outstanding y' < outstanding y).
  Proof.
    fix IH 1. intros [x|f] y i t l c Hi Hn.
    - exists [Poll i]. split; [repeat constructor|]. right. cbn. rewrite Hi, Hn. cbn. eexists. split; [reflexivity|].
      unfold outstanding. cbn.
      pose proof (outstanding_update _ _ (mk_task (tk_local t) (tk_calls t) Idle (tk_log t ++ [(l, c, Some x)])) Hi) as HO.
      unfold weight in HO. rewrite Hn in HO. cbn in HO. lia.
    - destruct (f (sy_shared y)) as [[s' p']| |] eqn:Ef.
      + set (y1 := mk_system s' (sy_holder y)
          (update i (mk_task (tk_local t) (tk_calls t) (Running l c p') (tk_log t)) (sy_tasks y)) (sy_hist y) (sy_base y)).
        assert (E1 : sys_step sem (Poll i) y = Ret y1) by (cbn; rewrite Hi, Hn, Ef; reflexivity).
        assert (HO : outstanding y1 = outstanding y).
        { pose proof (outstanding_update _ _ (mk_task (tk_local t) (tk_calls t) (Running l c p') (tk_log t)) Hi) as HO.
          unfold outstanding, y1. cbn [sy_tasks]. unfold weight in HO. rewrite Hn in HO. cbn in HO. lia. }
        destruct (IH p' y1 i (mk_task (tk_local t) (tk_calls t) (Running l c p') (tk_log t)) l c) as (evs & HF & H).
        { unfold y1. cbn. rewrite (@nth_error_update _ _ _ _ _ _ Hi), Nat.eqb_refl. reflexivity. }
        { reflexivity. }
        exists (Poll i :: evs). split; [constructor; [exact Logic.I|exact HF]|]. cbn [sys_run]. rewrite E1. cbn [bind]. rewrite <- HO. exact H.
      + exists [Poll i]. split; [repeat constructor|]. left. intros y'. cbn. rewrite Hi, Hn, Ef. discriminate.
      + exists [Poll i]. split; [repeat constructor|]. left. intros y'. cbn. rewrite Hi, Hn, Ef. discriminate.
  Qed.

  Lemma step_then : forall y i y1 (Q : system S X L K -> Prop), sys_step sem (Poll i) y = Ret y1 ->
    (exists evs, Forall is_poll evs /\ ((forall y', sys_run sem evs y1 <> Ret y') \/ exists y', sys_run sem evs y1 = Ret y' /\ Q y')) ->
    exists evs, Forall is_poll evs /\ ((forall y', sys_run sem evs y <> Ret y') \/ exists y', sys_run sem evs y = Ret y' /\ Q y').
  Proof.
    intros y i y1 Q E1 (evs & HF & H). exists (Poll i :: evs). split; [constructor; [exact Logic.I|exact HF]|].
    cbn [sys_run]. rewrite E1. exact H.
  Qed.

  Lemma make_progress : forall s0 tasks y, sys_ok s0 tasks y -> all_done y \/
    exists evs, Forall is_poll evs /\
      ((forall y', sys_run sem evs y <> Ret y') \/
       exists y', sys_run sem evs y = Ret y' /\ outstanding y' < outstanding y).
  Proof.
    intros s0 tasks y (HI & HL & Hlen & HT).
    assert (HW : sy_holder y = None -> forall i t l c p, nth_error (sy_tasks y) i = Some t -> tk_now t = Waiting l c p ->
      exists evs, Forall is_poll evs /\
      ((forall y', sys_run sem evs y <> Ret y') \/
       exists y', sys_run sem evs y = Ret y' /\ outstanding y' < outstanding y)).
    { intros Hh i t l c p Hi Hn.
      set (y1 := mk_system (sy_shared y) (Some i)
        (update i (mk_task (tk_local t) (tk_calls t) (Running l c p) (tk_log t)) (sy_tasks y)) (sy_hist y) (sy_shared y)).
      assert (HO : outstanding y1 = outstanding y).
      { pose proof (outstanding_update _ _ (mk_task (tk_local t) (tk_calls t) (Running l c p) (tk_log t)) Hi) as HO.
        unfold outstanding, y1. cbn [sy_tasks]. unfold weight in HO. rewrite Hn in HO. cbn in HO. lia. }
      eapply step_then with (i := i) (y1 := y1); [cbn; rewrite Hi, Hn, Hh; reflexivity|].
      rewrite <- HO. eapply finish_running.
      - unfold y1. cbn. rewrite (@nth_error_update _ _ _ _ _ _ Hi), Nat.eqb_refl. reflexivity.
      - reflexivity. }
    unfold lock_ok in HL. destruct (sy_holder y) as [h|] eqn:Hh.
    - right. destruct HL as [(t & l & c & p & E1 & E2 & E3) HO]. eapply finish_running; eassumption.
    - destruct HL as [E1 HO].
      destruct (Forall_Exists_dec (fun t : task S X L K => tk_now t = Idle /\ tk_calls t = [])) with (l := sy_tasks y) as [HA|HE].
      { intros t. destruct (tk_now t) eqn:Hn; [|right; intros [H _]; discriminate|right; intros [H _]; discriminate].
        destruct (tk_calls t) eqn:Hc; [now left|right; intros [_ H]; discriminate]. }
      { left. exact HA. }
      right. apply Exists_exists in HE as (t & Hin & Hnd). apply In_nth_error in Hin as [i Hi].
      destruct (tk_now t) as [|l c p|l c p] eqn:Hn.
      + destruct (tk_calls t) as [|c cs] eqn:Hc; [exfalso; apply Hnd; auto|].
        destruct (sem (tk_local t) c) as [l' [x|p]] eqn:Hs.
        * exists [Poll i]. split; [repeat constructor|]. right. cbn. rewrite Hi, Hn, Hc, Hs. cbn. eexists. split; [reflexivity|].
          unfold outstanding. cbn.
          pose proof (outstanding_update _ _ (mk_task l' cs Idle (tk_log t ++ [(tk_local t, c, Some x)])) Hi) as HU.
          unfold weight in HU. rewrite Hn, Hc in HU. cbn in HU. lia.
        * set (t1 := mk_task l' cs (Waiting (tk_local t) c p) (tk_log t)).
          set (y1 := mk_system (sy_shared y) (sy_holder y) (update i t1 (sy_tasks y)) (sy_hist y) (sy_base y)).
          set (t2 := mk_task l' cs (Running (tk_local t) c p) (tk_log t)).
          set (y2 := mk_system (sy_shared y) (Some i) (update i t2 (update i t1 (sy_tasks y))) (sy_hist y) (sy_shared y)).
          assert (Hi1 : nth_error (sy_tasks y1) i = Some t1).
          { unfold y1. cbn. rewrite (@nth_error_update _ _ _ _ _ _ Hi), Nat.eqb_refl. reflexivity. }
          assert (Hi2 : nth_error (sy_tasks y2) i = Some t2).
          { unfold y2. cbn. rewrite (@nth_error_update _ _ _ _ _ _ Hi1), Nat.eqb_refl. reflexivity. }
          assert (HU : outstanding y2 = outstanding y).
          { pose proof (outstanding_update _ _ t1 Hi) as HU1. pose proof (outstanding_update _ _ t2 Hi1) as HU2.
            unfold outstanding, y2, y1 in *. cbn [sy_tasks] in *. unfold weight in HU1, HU2. rewrite Hn, Hc in HU1. cbn in HU1, HU2. lia. }
          eapply step_then with (i := i) (y1 := y1); [cbn; rewrite Hi, Hn, Hc, Hs; reflexivity|].
          eapply step_then with (i := i) (y1 := y2); [cbn [sys_step]; rewrite Hi1; cbn; rewrite Hh; reflexivity|].
          rewrite <- HU. eapply finish_running; [exact Hi2|reflexivity].
      + eapply HW; eauto.
      + exfalso. apply (HO _ _ Hi). unfold running. now rewrite Hn.
  Qed.

  Lemma can_finish : forall n s0 tasks y, outstanding y <= n -> sys_ok s0 tasks y ->
    exists evs, Forall is_poll evs /\
      ((forall y', sys_run sem evs y <> Ret y') \/ exists y', sys_run sem evs y = Ret y' /\ all_done y').
  Proof.
    induction n as [|n IH]; intros s0 tasks y Hn OK; destruct (make_progress OK) as [HA|(evs & HF & [H|(y1 & E1 & Hlt)])];
      try (exists []; split; [constructor|]; right; exists y; split; [reflexivity|exact HA]);
      try (exists evs; split; [exact HF|left; exact H]).
    - lia.
    - assert (OK1 : sys_ok s0 tasks y1) by (eapply careful_ok; [apply polls_careful; eauto|exact OK]).
      destruct (IH _ _ y1 ltac:(lia) OK1) as (evs2 & HF2 & H2). exists (evs ++ evs2). split; [apply Forall_app; auto|].
      rewrite sys_run_app, E1. exact H2.
  Qed.

  Lemma careful_app : forall y evs y1, careful sem y evs y1 -> forall evs' y2, careful sem y1 evs' y2 -> careful sem y (evs ++ evs') y2.
  Proof. intros y evs y1 H. induction H; intros evs' y2 H2; cbn; [exact H2|]. econstructor; eauto. Qed.

  (** If no step can fail then polls can go on. *)
  Lemma polls_succeed : forall y0, (forall evs y ev, careful sem y0 evs y -> exists y', sys_step sem ev y = Ret y') ->
    forall evs' evs y, careful sem y0 evs y -> Forall is_poll evs' -> exists y', sys_run sem evs' y = Ret y'.
  Proof.
    intros y0 H. induction evs' as [|ev evs' IH]; intros evs y Hc HF; cbn; [eauto|].
    inversion HF as [|? ? Hp HF']; subst. destruct (H _ _ ev Hc) as [y1 E1]. rewrite E1. cbn.
    apply IH with (evs := evs ++ [ev]); auto. eapply careful_app; [exact Hc|].
    econstructor; [exact E1|intros i ->; contradiction|constructor].
  Qed.
End Mutex.

(** ** Encoders *)
Section Encoders.
  Context {S A V F E RT : Type} (encode : RT -> encode_fn V) (enc : RT -> V -> list byte)
    (C : bulk_consumer S byte F E) (M : machine A byte F E)
    (R : S -> A -> nat -> list byte -> Prop) (D : S -> A -> Prop)
    (encp : RT -> V -> prog S (res unit E)) (flushp : prog S (res unit E)).
  Hypothesis LE : forall r, lawful_encode (encode r) (enc r).
  Hypothesis LC : lawful_consumer C M R D.
  Hypothesis IE : forall r v, implements (encp r v) (fun s => encode r C v s).
  Hypothesis IF : implements flushp (fun s => c_flush C s).

  Let sem := shared_relative_encoder (F := F) encp flushp.

  (** One call: it succeeds or fails as feeding its bytes does. *)
  Lemma encoder_call_ok : forall rc s a k w, R s a k w ->
    match feed_calls M enc [rc] a with
    | (a', None) => exists s' k' w', call_alone sem rc s = Ret (s', Ok tt) /\ R s' a' k' w'
    | (a', Some e) => exists s', call_alone sem rc s = Ret (s', Err e) /\ D s' a'
    end.
  Proof.
    intros [r [v|f| |r']] s a k w HR; unfold call_alone; cbn.
    - pose proof (LE r LC v _ _ _ _ HR) as H. rewrite IE. destruct (m_feed M (enc r v) a) as [[a' n] [e|]].
      + destruct H as (s' & E1 & HD). eauto.
      + destruct H as (s' & E1 & HR'). eauto 6.
    - eauto 6.
    - rewrite IF. destruct (lc_flush (lc_core LC) HR) as (s' & E1 & H). rewrite E1.
      destruct (m_flush M a) as [a' [[]|e]]; cbn; eauto 6.
    - eauto 6.
  Qed.

  Lemma feed_calls_app : forall cs1 cs2 a,
    feed_calls M enc (cs1 ++ cs2) a =
    match feed_calls M enc cs1 a with
    | (a', None) => feed_calls M enc cs2 a'
    | (a', Some e) => (a', Some e)
    end.
  Proof.
    induction cs1 as [|[r [v|f| |r']] cs1 IH]; intros cs2 a; cbn; auto.
    - destruct (m_feed M (enc r v) a) as [[a' n] [e|]]; auto.
    - destruct (m_flush M a) as [a' [[]|e]]; auto.
  Qed.

  Lemma encoder_in_turn : forall cs s a k w rs s', R s a k w ->
    in_turn (map (call_alone sem) cs) s = (rs, Ret s') -> Forall (fun r => r = Ok tt) rs ->
    exists a' k' w', feed_calls M enc cs a = (a', None) /\ R s' a' k' w'.
  Proof.
    induction cs as [|rc cs IH]; intros s a k w rs s' HR H HF.
    - cbn in H. injection H as <- <-. cbn. eauto 6.
    - change (rc :: cs) with ([rc] ++ cs). rewrite feed_calls_app. cbn [map in_turn] in H.
      pose proof (encoder_call_ok rc HR) as HC. destruct (feed_calls M enc [rc] a) as [a1 [e|]].
      + destruct HC as (s1 & E1 & _). rewrite E1 in H. injection H as <- _. inversion HF; subst. discriminate.
      + destruct HC as (s1 & k1 & w1 & E1 & HR1). rewrite E1 in H.
        destruct (in_turn (map (call_alone sem) cs) s1) as [rs1 o] eqn:E2. injection H as <- H. cbn in H. subst o.
        inversion HF; subst. eapply IH; eauto.
  Qed.
End Encoders.

(** ** Decoders *)
Section Decoders.
  Context {S V F E O RT : Type} (decode : RT -> decode_fn V O) (dec : RT -> list byte -> parse V O)
    (P : bulk_producer S byte F E) (R : S -> list byte -> res F E -> nat -> Prop) (D : S -> Prop)
    (exposep : prog S (res (list byte + F) E)) (decp : RT -> prog S (res V (decode_error F E O)))
    (slurpp : prog S (res unit E)).
  Hypothesis LD : forall r, lawful_decode (decode r) (dec r).
  Hypothesis LP : lawful_producer P R D.
  Hypothesis LS : lawful_slurp P R D.
  Hypothesis IX : implements exposep (fun s => p_expose P s).
  Hypothesis ID : forall r, implements (decp r) (fun s => decode r P s).
  Hypothesis IS : implements slurpp (fun s => p_slurp P s).

  Let sem := shared_relative_decoder exposep decp slurpp.

  (** Under the lock, the shared decoder does what the ordinary decoder does. *)
  Lemma shared_produce_alone : forall r s,
    run_prog (shared_produce exposep (decp r)) s =
    let* (s', x) := decoder_produce (decode r) P s in Ret (s', BPItem x).
  Proof.
    intros r s. unfold shared_produce, decoder_produce. rewrite run_bind, IX.
    destruct (p_expose P s) as [[s1 [[ys|f]|e]]| |]; cbn [bind run_prog]; auto.
    rewrite run_bind, (ID r s1). destruct (decode r P s1) as [[s2 [v|e]]| |]; reflexivity.
  Qed.

  Lemma shared_slurp_alone : forall s,
    run_prog (shared_slurp (V := V) (F := F) (O := O) slurpp) s =
    let* (s', x) := decoder_slurp (F := F) (O := O) P s in Ret (s', BPUnit x).
  Proof.
    intros s. unfold shared_slurp, decoder_slurp. rewrite run_bind, IS.
    destruct (p_slurp P s) as [[s1 r]| |]; reflexivity.
  Qed.

  Lemma rel_decodes_app : forall X (evs1 evs2 : list (rel_event RT X)) r xs (l : res F E),
    rel_decodes dec r (evs1 ++ evs2) xs l =
    match rel_decodes dec r evs1 xs l with
    | (rest, vs, None) =>
        match rel_decodes dec (last_reference r evs1) evs2 rest l with (rest', vs', last) => (rest', vs ++ vs', last) end
    | done => done
    end.
  Proof.
    intros X. induction evs1 as [|[v|r'] evs1 IH]; intros evs2 r xs l; cbn [app rel_decodes].
    - cbn. now destruct (rel_decodes dec r evs2 xs l) as [[rest vs] last].
    - destruct xs as [|x xs]; [reflexivity|]. destruct (dec r (x :: xs)) as [u n|o n|]; try reflexivity.
      rewrite IH. destruct (rel_decodes dec r evs1 (skipn n (x :: xs)) l) as [[rest vs] [last|]]; [reflexivity|].
      change (last_reference r (RelItem v :: evs1)) with (last_reference r evs1).
      destruct (rel_decodes dec (last_reference r evs1) evs2 rest l) as [[rest' vs'] last]. reflexivity.
    - rewrite IH. reflexivity.
  Qed.

  (** One call. *)
  Lemma decoder_call_ok : forall rc s xs l k, R s xs l k ->
    exists s' x, call_alone sem rc s = Ret (s', x) /\
      ((answer_continues x /\ forall r0, exists rest k', R s' rest l k' /\
          rel_decodes dec r0 (produce_events [rc]) xs l = (rest, answered_items [x], None)) \/
       (snd rc = DProduce /\ exists last rest, x = BPItem (report_last last) /\
          forall r0, rel_decodes dec r0 (produce_events [rc]) xs l = (rest, [], Some last)) \/
       (snd rc = DSlurp /\ exists e, xs = [] /\ l = Err e /\ x = BPUnit (Err (Producer e)))).
  Proof.
    intros [r [| |r']] s xs l k HR; unfold call_alone; cbn [fst snd sem shared_relative_decoder].
    - rewrite shared_produce_alone. destruct xs as [|x0 xs0].
      + destruct (decoder_produce_end (decode r) LP _ _ _ HR) as (s' & E1 & HD). rewrite E1. cbn [bind].
        exists s', (BPItem (report_last (map_err Producer l))). split; [reflexivity|]. right. left. split; [reflexivity|].
        exists (map_err Producer l), []. auto.
      + pose proof (decoder_produce_item (LD r) LP _ _ _ HR (not_eq_sym (@nil_cons _ x0 xs0))) as H.
        destruct (dec r (x0 :: xs0)) as [u n|o n|] eqn:Ed; destruct H as (s' & E1 & H); rewrite E1; cbn [bind]; do 2 eexists;
          (split; [reflexivity|]).
        * left. split; [exact Logic.I|]. intros r0. do 2 eexists. split; [exact H|].
          cbn [produce_events flat_map snd fst app rel_decodes]. rewrite Ed. reflexivity.
        * right. left. split; [reflexivity|]. exists (Err (Other o)), (skipn n (x0 :: xs0)). split; [reflexivity|].
          intros r0. cbn [produce_events flat_map snd fst app rel_decodes]. rewrite Ed. reflexivity.
        * right. left. split; [reflexivity|]. exists (Err (early l)), []. split; [reflexivity|].
          intros r0. cbn [produce_events flat_map snd fst app rel_decodes]. rewrite Ed. reflexivity.
    - rewrite shared_slurp_alone. unfold decoder_slurp.
      destruct (LS HR) as [(s' & E1 & HR')|(s' & e & E1 & Hx & Hl & HD)]; rewrite E1; cbn; do 2 eexists; (split; [reflexivity|]).
      + left. split; [exact Logic.I|]. intros r0. eauto.
      + right. right. split; [reflexivity|]. exists e. auto.
    - exists s, (BPUnit (Ok tt)). split; [reflexivity|]. left. split; [exact Logic.I|]. intros r0. cbn. eauto.
  Qed.

  Lemma produce_events_app : forall cs1 cs2 : list (RT * dcall RT),
    produce_events (cs1 ++ cs2) = produce_events cs1 ++ produce_events cs2.
  Proof. intros. apply flat_map_app. Qed.

  Lemma decoder_in_turn : forall cs s xs l k rs s' r0, R s xs l k ->
    in_turn (map (call_alone sem) cs) s = (rs, Ret s') -> Forall answer_continues rs ->
    exists rest k', rel_decodes dec r0 (produce_events cs) xs l = (rest, answered_items rs, None) /\ R s' rest l k'.
  Proof.
    induction cs as [|rc cs IH]; intros s xs l k rs s' r0 HR H HF.
    - cbn in H. injection H as <- <-. cbn. eauto.
    - change (rc :: cs) with ([rc] ++ cs). rewrite produce_events_app, rel_decodes_app. cbn [map in_turn] in H.
      destruct (decoder_call_ok rc HR) as (s1 & x & E1 & HC). rewrite E1 in H.
      destruct (in_turn (map (call_alone sem) cs) s1) as [rs1 o] eqn:E2. injection H as <- H. cbn in H. subst o. cbn in HF.
      inversion HF as [|? ? Hx HF1]; subst.
      destruct HC as [[_ HC]|[[_ (last & rest & Ex & _)]|[_ (e & _ & _ & Ex)]]].
      + destruct (HC r0) as (rest & k' & HR1 & E3). rewrite E3.
        destruct (IH _ _ _ _ _ _ (last_reference r0 (produce_events [rc])) HR1 E2 HF1) as (rest2 & k2 & E4 & HR2). rewrite E4.
        exists rest2, k2. split; [|exact HR2]. cbn [answered_items flat_map fst] in *. now rewrite app_nil_r.
      + subst x. destruct last; contradiction.
      + subst x. contradiction.
  Qed.
End Decoders.

(** ** The variants without reference value *)
Definition embed_ecall {V F} (c : ecall infallible V F) : ecall unit V F :=
  match c with
  | EConsume v => EConsume v
  | EClose f => EClose f
  | EFlush => EFlush
  | ESetRelativeTo r => match r with end
  end.

Lemma shared_encoder_alone : forall S V F E (encp : V -> prog S (res unit E)) flushp u (c : ecall infallible V F),
  call_alone (shared_encoder encp flushp) (u, c) =
  call_alone (shared_relative_encoder (fun _ => encp) flushp) (tt, embed_ecall c).
Proof. intros S V F E encp flushp u [v|f| |[]]; reflexivity. Qed.

Definition embed_dcall (c : dcall infallible) : dcall unit :=
  match c with
  | DProduce => DProduce
  | DSlurp => DSlurp
  | DSetRelativeTo r => match r with end
  end.

Lemma shared_decoder_alone : forall S V F E O exposep (decp : prog S (res V (decode_error F E O))) slurpp u c,
  call_alone (shared_decoder exposep decp slurpp) (u, c) =
  call_alone (shared_relative_decoder exposep (fun _ => decp) slurpp) (tt, embed_dcall c).
Proof. intros S V F E O exposep decp slurpp u [| |[]]; reflexivity. Qed.

Lemma in_turn_ext : forall S X B (f g : B -> S -> outcome (S * X)) bs s, (forall b s, f b s = g b s) ->
  in_turn (map f bs) s = in_turn (map g bs) s.
Proof. intros S X B f g. induction bs as [|b bs IH]; intros s H; cbn; [reflexivity|]. rewrite H. destruct (g b s) as [[s' x]| |]; [|reflexivity..]. now rewrite IH. Qed.

(** The bytes of calls without errors. *)
Lemma feed_calls_collect : forall V F RT (enc : RT -> V -> list byte) (cs : list (RT * ecall RT V F)) a,
  feed_calls (collect_machine byte F infallible) enc cs a = (a ++ call_bytes enc cs, None).
Proof.
  induction cs as [|[r [v|f| |r']] cs IH]; intros a; unfold call_bytes in *; cbn [feed_calls flat_map snd fst].
  - now rewrite app_nil_r.
  - rewrite collect_feed, IH, app_assoc. reflexivity.
  - apply IH.
  - cbn. apply IH.
  - apply IH.
Qed.

(** The plain encoder over a vector: where the vector is when the lock is free. *)
Section IntoVec.
  Context {V : Type} {encode : encode_fn V} {enc : V -> list byte}
    {encp : V -> prog (into_vec byte) (res unit infallible)} {flushp : prog (into_vec byte) (res unit infallible)}.
  Hypothesis L : lawful_encode encode enc.
  Hypothesis IE : forall v, implements (encp v) (fun s => encode (into_vec_consumer x00) v s).
  Hypothesis IF : implements flushp (fun s => c_flush (into_vec_consumer x00) s).

  Lemma shared_into_vec : forall (tasks : list (unit * list (ecall infallible V unit))) evs y,
    careful (shared_encoder encp flushp) (system_new into_vec_new tasks) evs y ->
    exists w k u, concat (map (fun e => match snd (fst (snd e)) with EConsume v => enc v | _ => [] end) (sy_hist y)) = w /\
      iv_rel (sy_base y) w k u.
  Proof.
    intros tasks evs y H. destruct (careful_ok H (sys_ok_new _ _ tasks)) as (H1 & _).
    assert (HR0 : @iv_rel byte into_vec_new [] 0 []) by repeat constructor.
    rewrite (map_ext (fun e => call_alone (shared_encoder encp flushp) (fst (snd e)))
      (fun e => call_alone (shared_relative_encoder (fun _ => encp) flushp) (tt, embed_ecall (snd (fst (snd e)))))) in H1
      by (intros [j [[[] c] x]]; apply shared_encoder_alone).
    rewrite <- (map_map (fun e => (tt, embed_ecall (snd (fst (snd e))))) (call_alone (shared_relative_encoder (fun _ => encp) flushp))) in H1.
    destruct (encoder_in_turn (fun _ => encode) (fun _ => enc) (fun _ => encp) (fun _ => L) (@into_vec_lawful byte x00) (fun _ => IE) IF
      _ _ _ _ _ HR0 H1) as (a' & k' & w' & E1 & HR').
    { apply Forall_forall. intros [[]|[]] _. reflexivity. }
    rewrite feed_calls_collect in E1. injection E1 as <-. do 3 eexists. split; [|exact HR'].
    unfold call_bytes. rewrite flat_map_concat_map, map_map. cbn. f_equal.
    apply map_ext. intros [j [[u [v|f| |[]]] x]]; reflexivity.
  Qed.

  Lemma shared_into_vec_step : forall (tasks : list (unit * list (ecall infallible V unit))) evs y ev,
    careful (shared_encoder encp flushp) (system_new into_vec_new tasks) evs y ->
    exists y', sys_step (shared_encoder encp flushp) ev y = Ret y'.
  Proof.
    intros tasks evs y ev H. destruct (shared_into_vec H) as (w & k & u & _ & HR).
    destruct (sys_step (shared_encoder (F := unit) encp flushp) ev y) as [y'| |] eqn:E1; [eauto| |]; exfalso;
      (destruct (@sys_step_fails _ _ _ _ _ into_vec_new tasks y ev (careful_ok H (sys_ok_new _ _ tasks))) as (i & t & r & c & p & _ & _ & _ & E2);
       [rewrite E1; discriminate|]; rewrite shared_encoder_alone in E2;
       pose proof (encoder_call_ok (fun _ => encode) (fun _ => enc) (fun _ => encp) (fun _ => L) (@into_vec_lawful byte x00) (fun _ => IE) IF
         (tt, embed_ecall c) _ _ _ _ HR) as HC;
       destruct (feed_calls (collect_machine byte unit infallible) (fun _ => enc) [(tt, embed_ecall c)] w) as [a2 [e2|]];
       [destruct HC as (s' & E4 & _); exact (E2 _ _ E4)|destruct HC as (s' & k2 & w2 & E4 & _); exact (E2 _ _ E4)]).
  Qed.
End IntoVec.

(** ** Reference values *)
Lemma with_locals_references : forall S X RT K (sem : RT -> K -> RT * body S X) set,
  (forall r c, fst (sem r c) = match set c with Some r' => r' | None => r end) ->
  forall cs r, with_locals sem r cs = with_references set r cs.
Proof. intros S X RT K sem set H. induction cs as [|c cs IH]; intros r; cbn; [reflexivity|]. now rewrite H, IH. Qed.

Lemma locked_calls_completed : forall S X RT K (sem : RT -> K -> RT * body S X) uses,
  (forall r c, match snd (sem r c) with Locked _ => uses c = true | Local _ => uses c = false end) ->
  forall log, locked_calls sem log = completed uses log.
Proof.
  intros S X RT K sem uses H. induction log as [|[[r c] [x|]] log IH]; auto.
  unfold locked_calls, completed in *. cbn. rewrite IH. specialize (H r c). now destruct (snd (sem r c)); rewrite H.
Qed.

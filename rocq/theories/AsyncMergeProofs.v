(** Proofs about Merge poll by poll. *)
From Coq Require Import Bool List Arith Lia.
From Verif Require Import Prelude ListFacts Traits MergeModel MergeSpec MergeProofs AsyncModel AsyncSpec AsyncProofs AsyncMergeModel AsyncMergeSpec.
Import ListNotations.

Section AsyncMerge.
  Context {S1 S2 T F E : Type} (P1 : a_producer S1 T F E) (P2 : a_producer S2 T F E).
  Notation B1 := (blocking_producer P1).
  Notation B2 := (blocking_producer P2).

  (** A future, perhaps polled already, that amounts to a [produce] call in the state [s]. *)
  Definition amounts {S} (P : a_producer S T F E) (o : owned S (res (T + F) E)) (s : S) : Prop :=
    run (o_future o) (o_producer o) = p_produce (blocking_producer P) s.

  Lemma own_amounts : forall S (P : a_producer S T F E) p, amounts P (own P p) p.
  Proof. reflexivity. Qed.

  Lemma poll_owned_amounts : forall S (P : a_producer S T F E) o s, amounts P o s ->
    match poll_owned o with
    | Ret (Ready (p, x)) => p_produce (blocking_producer P) s = Ret (p, x) /\ pendings (o_future o) (o_producer o) = 0
    | Ret (Pending _ o') => amounts P o' s /\ pendings (o_future o) (o_producer o) = Datatypes.S (pendings (o_future o') (o_producer o'))
    | Panic => p_produce (blocking_producer P) s = Panic
    | NoFuel => p_produce (blocking_producer P) s = NoFuel
    end.
  Proof.
    intros S P [[p] q] s H. unfold amounts, poll_owned in *. cbn in *.
    destruct (p q) as [[q' [x|w f]]| |]; cbn in *; auto.
  Qed.

  Definition amounts_opt {S} (P : a_producer S T F E) (o : option (owned S (res (T + F) E))) (s : option S) : Prop :=
    match o, s with
    | Some o, Some s => amounts P o s
    | None, None => True
    | _, _ => False
    end.

  Definition sim (m : a_merge S1 S2 T F E) (m0 : merge S1 S2) : Prop :=
    amounts_opt P1 (a_future1 m) (produce_future1 m0) /\ amounts_opt P2 (a_future2 m) (produce_future2 m0).

  (** The future of [produce] borrows what is there. *)
  Definition at_ok (at_ : merge_at) (m : a_merge S1 S2 T F E) : Prop :=
    match at_, a_future1 m, a_future2 m with
    | AtStart, _, _ => True
    | AtFirst, Some _, None => True
    | AtSecond, None, Some _ => True
    | AtSelect, Some _, Some _ => True
    | _, _, _ => False
    end.

  Lemma body_at_start : forall b at_ m, at_ok at_ m -> merge_body P1 P2 b at_ m = merge_body P1 P2 b AtStart m.
  Proof. intros b at_ [[o1|] [o2|]]; destruct at_; cbn; tauto. Qed.

  Lemma poll_at_start : forall fuel b at_ m, at_ok at_ m -> merge_poll P1 P2 fuel b at_ m = merge_poll P1 P2 fuel b AtStart m.
  Proof. intros [|fuel] b at_ m H; [reflexivity|]. cbn [merge_poll]. now rewrite (body_at_start b at_ m H). Qed.

  Lemma body_sim : forall b m m0, sim m m0 -> exists c,
    match merge_body P1 P2 b AtStart m with
    | Ret (m', NextIteration) => exists m0', merge_step B1 B2 c m0 = Ret (m0', Again) /\ sim m' m0' /\
        ((a_future1 m' = None /\ exists o, a_future2 m' = Some o) \/ (a_future2 m' = None /\ exists o, a_future1 m' = Some o)) /\
        (a_future1 m <> None /\ a_future2 m <> None)
    | Ret (m', Polled (Ready r)) => exists m0', merge_step B1 B2 c m0 = Ret (m0', MergeModel.Ready r) /\ sim m' m0'
    | Ret (m', Polled (Pending _ at_)) => exists m0', merge_step B1 B2 c m0 = Ret (m0', MergeModel.Pending) /\ sim m' m0' /\ at_ok at_ m'
    | Panic => merge_step B1 B2 c m0 = Panic
    | NoFuel => merge_step B1 B2 c m0 = NoFuel
    end.
  Proof.
    intros b [[o1|] [o2|]] [[s1|] [s2|]] [H1 H2]; cbn in H1, H2; try contradiction.
    - pose proof (poll_owned_amounts _ P1 o1 s1 H1) as A1. pose proof (poll_owned_amounts _ P2 o2 s2 H2) as A2.
      unfold merge_body, await_select, merge_step, merge_left, merge_right. cbn [a_future1 a_future2 produce_future1 produce_future2].
      destruct b.
      + destruct (poll_owned o2) as [[[p2 r2]|w2 o2']| |]; cbn [bind].
        * destruct A2 as [A2 _]. exists (mk_choice true true true). cbn -[p_produce]. rewrite A2. cbn.
          destruct r2 as [[x|f]|e]; cbn; eexists; (split; [reflexivity|]); cbn; unfold sim; cbn; splits; eauto using own_amounts; try discriminate.
        * destruct A2 as [A2 _]. destruct (poll_owned o1) as [[[p1 r1]|w1 o1']| |]; cbn [bind].
          -- destruct A1 as [A1 _]. exists (mk_choice true true false). cbn -[p_produce]. rewrite A1. cbn.
             destruct r1 as [[x|f]|e]; cbn; eexists; (split; [reflexivity|]); cbn; unfold sim; cbn; splits; eauto using own_amounts; try discriminate.
          -- destruct A1 as [A1 _]. exists (mk_choice true false false). cbn. eexists; split; [reflexivity|]. unfold sim; cbn. auto.
          -- exists (mk_choice true true false). cbn -[p_produce]. now rewrite A1.
          -- exists (mk_choice true true false). cbn -[p_produce]. now rewrite A1.
        * exists (mk_choice true true true). cbn -[p_produce]. now rewrite A2.
        * exists (mk_choice true true true). cbn -[p_produce]. now rewrite A2.
      + destruct (poll_owned o1) as [[[p1 r1]|w1 o1']| |]; cbn [bind].
        * destruct A1 as [A1 _]. exists (mk_choice false true true). cbn -[p_produce]. rewrite A1. cbn.
          destruct r1 as [[x|f]|e]; cbn; eexists; (split; [reflexivity|]); cbn; unfold sim; cbn; splits; eauto using own_amounts; try discriminate.
        * destruct A1 as [A1 _]. destruct (poll_owned o2) as [[[p2 r2]|w2 o2']| |]; cbn [bind].
          -- destruct A2 as [A2 _]. exists (mk_choice false false true). cbn -[p_produce]. rewrite A2. cbn.
             destruct r2 as [[x|f]|e]; cbn; eexists; (split; [reflexivity|]); cbn; unfold sim; cbn; splits; eauto using own_amounts; try discriminate.
          -- destruct A2 as [A2 _]. exists (mk_choice false false false). cbn. eexists; split; [reflexivity|]. unfold sim; cbn. auto.
          -- exists (mk_choice false false true). cbn -[p_produce]. now rewrite A2.
          -- exists (mk_choice false false true). cbn -[p_produce]. now rewrite A2.
        * exists (mk_choice false true true). cbn -[p_produce]. now rewrite A1.
        * exists (mk_choice false true true). cbn -[p_produce]. now rewrite A1.
    - pose proof (poll_owned_amounts _ P1 o1 s1 H1) as A1.
      unfold merge_body, await_first, merge_step. cbn [a_future1 a_future2 produce_future1 produce_future2].
      destruct (poll_owned o1) as [[[p1 r1]|w1 o1']| |]; cbn [bind].
      + destruct A1 as [A1 _]. exists (mk_choice false true true). cbn -[p_produce]. rewrite A1. cbn.
        eexists; split; [reflexivity|]. unfold sim; cbn. auto using own_amounts.
      + destruct A1 as [A1 _]. exists (mk_choice false false false). cbn. eexists; split; [reflexivity|]. unfold sim; cbn. auto.
      + exists (mk_choice false true true). cbn -[p_produce]. now rewrite A1.
      + exists (mk_choice false true true). cbn -[p_produce]. now rewrite A1.
    - pose proof (poll_owned_amounts _ P2 o2 s2 H2) as A2.
      unfold merge_body, await_second, merge_step. cbn [a_future1 a_future2 produce_future1 produce_future2].
      destruct (poll_owned o2) as [[[p2 r2]|w2 o2']| |]; cbn [bind].
      + destruct A2 as [A2 _]. exists (mk_choice false true true). cbn -[p_produce]. rewrite A2. cbn.
        eexists; split; [reflexivity|]. unfold sim; cbn. auto using own_amounts.
      + destruct A2 as [A2 _]. exists (mk_choice false false false). cbn. eexists; split; [reflexivity|]. unfold sim; cbn. auto.
      + exists (mk_choice false true true). cbn -[p_produce]. now rewrite A2.
      + exists (mk_choice false true true). cbn -[p_produce]. now rewrite A2.
    - exists (mk_choice false false false). reflexivity.
  Qed.

  (** Two passes are enough for a poll. *)
  Lemma poll_sim : forall fuel b m m0, 2 <= fuel -> sim m m0 -> exists sched,
    match merge_poll P1 P2 fuel b AtStart m with
    | Ret (m', Ready r) => exists m0', sim m' m0' /\ forall rest, merge_produce B1 B2 (sched ++ rest) m0 = Ret (m0', rest, Some r)
    | Ret (m', Pending _ at_) => exists m0', sim m' m0' /\ at_ok at_ m' /\
        forall rest, merge_produce B1 B2 (sched ++ rest) m0 = merge_produce B1 B2 rest m0'
    | Panic => merge_produce B1 B2 sched m0 = Panic
    | NoFuel => merge_produce B1 B2 sched m0 = NoFuel
    end.
  Proof.
    intros [|[|fuel]] b m m0 Hf H; [lia|lia|]. clear Hf.
    destruct (body_sim b m m0 H) as [c Hc]. cbn [merge_poll].
    destruct (merge_body P1 P2 b AtStart m) as [[m' [|[r|w at_]]]| |]; cbn [bind].
    - destruct Hc as (m0' & E1 & H' & Hn & _). destruct (body_sim b m' m0' H') as [c' Hc'].
      exists [c; c']. cbn [app merge_produce]. rewrite E1. cbn [bind merge_produce].
      destruct (merge_body P1 P2 b AtStart m') as [[m'' [|[r|w at_]]]| |]; cbn [bind].
      + destruct Hc' as (? & _ & _ & _ & Ha & Hb). destruct Hn as [[Hn _]|[Hn _]]; rewrite Hn in *; congruence.
      + destruct Hc' as (m0'' & E2 & H''). rewrite E2. cbn. eauto.
      + destruct Hc' as (m0'' & E2 & H'' & Ha). rewrite E2. cbn. eauto.
      + rewrite Hc'. reflexivity.
      + rewrite Hc'. reflexivity.
    - destruct Hc as (m0' & E1 & H'). exists [c]. cbn [app merge_produce]. rewrite E1. cbn. eauto.
    - destruct Hc as (m0' & E1 & H' & Ha). exists [c]. cbn [app merge_produce]. rewrite E1. cbn. eauto.
    - exists [c]. cbn [app merge_produce]. now rewrite Hc.
    - exists [c]. cbn [app merge_produce]. now rewrite Hc.
  Qed.

  Lemma if_start : forall b at_ m, at_ok at_ m -> at_ok (if b : bool then AtStart else at_) m.
  Proof. intros [|] at_ m H; [exact Logic.I|exact H]. Qed.

  Lemma session_sim : forall fuel acts at_ m m0 n, 2 <= fuel -> at_ok at_ m -> sim m m0 -> length acts <= n ->
    exists sched, seen (merge_session P1 P2 fuel acts at_ m) = seen (merge_calls B1 B2 n sched m0).
  Proof.
    intros fuel acts. induction acts as [|act acts IH]; intros at_ m m0 n Hf Ha H Hn.
    - exists []. destruct n; reflexivity.
    - destruct n as [|n]; cbn in Hn; [lia|]. cbn [merge_session].
      rewrite (poll_at_start fuel (order act) _ m (if_start (drop_first act) _ _ Ha)).
      destruct (poll_sim fuel (order act) m m0 Hf H) as [sched Hs].
      destruct (merge_poll P1 P2 fuel (order act) AtStart m) as [[m' [r|w at1]]| |]; cbn [bind].
      + destruct Hs as (m0' & H' & Hs). destruct r as [[x|f]|e].
        * destruct (IH AtStart m' m0' n Hf Logic.I H') as [rest Hr]; [lia|].
          exists (sched ++ rest). cbn [merge_calls]. rewrite Hs. cbn [bind].
          destruct (merge_session P1 P2 fuel acts AtStart m') as [[[? ?] ?]| |], (merge_calls B1 B2 n rest m0') as [[[? ?] ?]| |];
            cbn in *; congruence.
        * exists sched. cbn [merge_calls]. rewrite <- (app_nil_r sched), Hs. reflexivity.
        * exists sched. cbn [merge_calls]. rewrite <- (app_nil_r sched), Hs. reflexivity.
      + destruct Hs as (m0' & H' & Ha' & Hs). destruct (IH at1 m' m0' (S n) Hf Ha' H') as [rest Hr]; [lia|].
        exists (sched ++ rest). rewrite Hr. cbn [merge_calls]. rewrite Hs. reflexivity.
      + exists sched. cbn [merge_calls]. rewrite Hs. reflexivity.
      + exists sched. cbn [merge_calls]. rewrite Hs. reflexivity.
  Qed.

  Lemma new_sim : forall s1 s2, sim (a_merge_new P1 P2 s1 s2) (merge_new s1 s2).
  Proof. intros. split; reflexivity. Qed.

  (** ** Dropping *)

  Lemma body_at_ok : forall b m m' w at_, merge_body P1 P2 b AtStart m = Ret (m', Polled (Pending w at_)) -> at_ok at_ m'.
  Proof.
    intros b [[o1|] [o2|]] m' w at_ H; cbn in H; unfold await_first, await_second, await_select, select_left, select_right in H;
      repeat (match type of H with context [poll_owned ?o] => destruct (poll_owned o) as [[[? [[?|?]|?]]|? ?]| |]
              | context [if ?b then _ else _] => destruct b end; cbn in H; try discriminate);
      try discriminate; injection H as <- _ <-; exact Logic.I.
  Qed.

  Lemma poll_at_ok : forall fuel b m m' w at_, merge_poll P1 P2 fuel b AtStart m = Ret (m', Pending w at_) -> at_ok at_ m'.
  Proof.
    induction fuel as [|fuel IH]; intros b m m' w at_ H; [discriminate|]. cbn [merge_poll] in H.
    destruct (merge_body P1 P2 b AtStart m) as [[m1 [|r]]| |] eqn:Eb; cbn [bind] in H; try discriminate.
    - exact (IH _ _ _ _ _ H).
    - injection H as <- ->. exact (body_at_ok _ _ _ _ _ Eb).
  Qed.

  Lemma session_drop : forall fuel acts at_ at' m, at_ok at_ m -> at_ok at' m ->
    merge_session P1 P2 fuel acts at_ m = merge_session P1 P2 fuel (map (fun act => mk_merge_act false (order act)) acts) at' m.
  Proof.
    intros fuel acts. induction acts as [|act acts IH]; intros at_ at' m Ha Ha'; [reflexivity|].
    cbn [map merge_session drop_first order].
    rewrite (poll_at_start fuel (order act) _ m (if_start (drop_first act) _ _ Ha)), (poll_at_start fuel (order act) at' m Ha').
    destruct (merge_poll P1 P2 fuel (order act) AtStart m) as [[m' [[[x|f]|e]|w at1]]| |] eqn:Ep; cbn [bind]; try reflexivity.
    - now rewrite (IH AtStart AtStart m' Logic.I Logic.I).
    - apply poll_at_ok in Ep. now apply IH.
  Qed.

  (** ** How many polls it takes *)

  Inductive o_yields {S} (P : a_producer S T F E) (o : owned S (res (T + F) E)) : list T -> res F E -> nat -> Prop :=
  | o_yields_final : forall s' f, run (o_future o) (o_producer o) = Ret (s', Ok (inr f)) ->
      o_yields P o [] (Ok f) (pendings (o_future o) (o_producer o))
  | o_yields_error : forall s' e, run (o_future o) (o_producer o) = Ret (s', Err e) ->
      o_yields P o [] (Err e) (pendings (o_future o) (o_producer o))
  | o_yields_item : forall s' x xs l n, run (o_future o) (o_producer o) = Ret (s', Ok (inl x)) -> a_yields P s' xs l n ->
      o_yields P o (x :: xs) l (pendings (o_future o) (o_producer o) + n).

  Lemma own_yields : forall S (P : a_producer S T F E) s xs l n, a_yields P s xs l n -> o_yields P (own P s) xs l n.
  Proof.
    intros S P s xs l n H.
    destruct H; [eapply (o_yields_final P (own P s))|eapply (o_yields_error P (own P s))|eapply (o_yields_item P (own P s))]; eauto.
  Qed.

  (** One poll. *)
  Lemma poll_yields : forall S (P : a_producer S T F E) o xs l n, o_yields P o xs l n ->
    (exists w o' n', poll_owned o = Ret (Pending w o') /\ o_yields P o' xs l n' /\ n = Datatypes.S n') \/
    (exists s' f, poll_owned o = Ret (Ready (s', Ok (inr f))) /\ xs = []) \/
    (exists s' e, poll_owned o = Ret (Ready (s', Err e))) \/
    (exists s' x xs', poll_owned o = Ret (Ready (s', Ok (inl x))) /\ xs = x :: xs' /\ o_yields P (own P s') xs' l n).
  Proof.
    intros S P [[p] q] xs l n H. unfold poll_owned. cbn.
    destruct H as [s' f H|s' e H|s' x xs l n H Hy]; cbn in *; destruct (p q) as [[q' [r|w f']]| |]; try discriminate; cbn in *.
    - injection H as -> ->. right; left. eauto.
    - left. do 3 eexists. split; [reflexivity|]. split; [|reflexivity]. eapply (o_yields_final P (mk_owned f' q')); cbn; eauto.
    - injection H as -> ->. right; right; left. eauto.
    - left. do 3 eexists. split; [reflexivity|]. split; [|reflexivity]. eapply (o_yields_error P (mk_owned f' q')); cbn; eauto.
    - injection H as -> ->. right; right; right. do 3 eexists. split; [reflexivity|]. split; [reflexivity|]. now apply own_yields.
    - left. do 3 eexists. split; [reflexivity|].
      split; [eapply (o_yields_item P (mk_owned f' q')); cbn; eauto|reflexivity].
  Qed.

  Definition side_takes {S} (P : a_producer S T F E) (o : option (owned S (res (T + F) E))) (k n : nat) : Prop :=
    match o with
    | Some o => exists xs l, o_yields P o xs l n /\ k = length xs
    | None => k = 0 /\ n = 0
    end.

  Definition takes (m : a_merge S1 S2 T F E) (k n : nat) : Prop :=
    (a_future1 m <> None \/ a_future2 m <> None) /\
    exists k1 n1 k2 n2, side_takes P1 (a_future1 m) k1 n1 /\ side_takes P2 (a_future2 m) k2 n2 /\ k1 + k2 = k /\ Nat.max n1 n2 = n.

  Definition takes_less (m : a_merge S1 S2 T F E) (k n : nat) : Prop := exists k' n', takes m k' n' /\ k' <= k /\ n' <= n.

  Ltac done_takes := unfold takes_less, takes, side_takes; cbn -[Nat.max]; do 2 eexists; split; [split; [first [left; discriminate|right; discriminate]|
    do 4 eexists; split; [eauto|split; [eauto|split; reflexivity]]]|cbn -[Nat.max] in *; lia].

  Lemma body_takes : forall b m k n, takes m k n ->
    exists m' p, merge_body P1 P2 b AtStart m = Ret (m', p) /\
    match p with
    | NextIteration => takes_less m' k n /\ a_future1 m <> None /\ a_future2 m <> None /\ (a_future1 m' = None \/ a_future2 m' = None)
    | Polled (Ready (Ok (inl _))) => exists k', k = S k' /\ takes_less m' k' n
    | Polled (Ready _) => True
    | Polled (Pending _ _) => exists n', n = S n' /\ takes_less m' k n'
    end.
  Proof.
    intros b [[o1|] [o2|]] k n (Hs & k1 & n1 & k2 & n2 & H1 & H2 & <- & <-); cbn in H1, H2, Hs;
      [| | |destruct Hs; congruence].
    - destruct H1 as (xs & l1 & H1 & ->). destruct H2 as (ys & l2 & H2 & ->).
      pose proof (poll_yields _ _ _ _ _ _ H1) as D1. pose proof (poll_yields _ _ _ _ _ _ H2) as D2.
      unfold merge_body, await_select. cbn [a_future1 a_future2]. destruct b.
      + destruct D2 as [(w2 & o2' & n2' & -> & H2' & ->)|[(s' & f & -> & ->)|[(s' & e & ->)|(s' & y & ys' & -> & -> & H2')]]]; cbn [bind].
        * destruct D1 as [(w1 & o1' & n1' & -> & H1' & ->)|[(s' & f & -> & ->)|[(s' & e & ->)|(s' & x & xs' & -> & -> & H1')]]]; cbn -[Nat.max].
          -- do 2 eexists. split; [reflexivity|]. cbn -[Nat.max]. exists (Nat.max n1' n2'). split; [lia|]. done_takes.
          -- do 2 eexists. split; [reflexivity|]. cbn -[Nat.max]. splits; auto; try discriminate. done_takes.
          -- do 2 eexists. split; [reflexivity|]. exact Logic.I.
          -- do 2 eexists. split; [reflexivity|]. cbn -[Nat.max]. eexists. split; [reflexivity|]. done_takes.
        * do 2 eexists. split; [reflexivity|]. cbn -[Nat.max]. splits; auto; try discriminate. done_takes.
        * do 2 eexists. split; [reflexivity|]. exact Logic.I.
        * do 2 eexists. split; [reflexivity|]. cbn -[Nat.max]. eexists. split; [apply Nat.add_succ_r|]. done_takes.
      + destruct D1 as [(w1 & o1' & n1' & -> & H1' & ->)|[(s' & f & -> & ->)|[(s' & e & ->)|(s' & x & xs' & -> & -> & H1')]]]; cbn [bind].
        * destruct D2 as [(w2 & o2' & n2' & -> & H2' & ->)|[(s' & f & -> & ->)|[(s' & e & ->)|(s' & y & ys' & -> & -> & H2')]]]; cbn -[Nat.max].
          -- do 2 eexists. split; [reflexivity|]. cbn -[Nat.max]. exists (Nat.max n1' n2'). split; [lia|]. done_takes.
          -- do 2 eexists. split; [reflexivity|]. cbn -[Nat.max]. splits; auto; try discriminate. done_takes.
          -- do 2 eexists. split; [reflexivity|]. exact Logic.I.
          -- do 2 eexists. split; [reflexivity|]. cbn -[Nat.max]. eexists. split; [apply Nat.add_succ_r|]. done_takes.
        * do 2 eexists. split; [reflexivity|]. cbn -[Nat.max]. splits; auto; try discriminate. done_takes.
        * do 2 eexists. split; [reflexivity|]. exact Logic.I.
        * do 2 eexists. split; [reflexivity|]. cbn -[Nat.max]. eexists. split; [reflexivity|]. done_takes.
    - destruct H1 as (xs & l1 & H1 & ->). destruct H2 as [-> ->]. pose proof (poll_yields _ _ _ _ _ _ H1) as D1.
      unfold merge_body, await_first. cbn [a_future1 a_future2].
      destruct D1 as [(w1 & o1' & n1' & -> & H1' & ->)|[(s' & f & -> & ->)|[(s' & e & ->)|(s' & x & xs' & -> & -> & H1')]]]; cbn -[Nat.max].
      + do 2 eexists. split; [reflexivity|]. cbn -[Nat.max]. exists n1'. split; [lia|]. done_takes.
      + do 2 eexists. split; [reflexivity|]. exact Logic.I.
      + do 2 eexists. split; [reflexivity|]. exact Logic.I.
      + do 2 eexists. split; [reflexivity|]. cbn -[Nat.max]. eexists. split; [reflexivity|]. done_takes.
    - destruct H2 as (ys & l2 & H2 & ->). destruct H1 as [-> ->]. pose proof (poll_yields _ _ _ _ _ _ H2) as D2.
      unfold merge_body, await_second. cbn [a_future1 a_future2].
      destruct D2 as [(w2 & o2' & n2' & -> & H2' & ->)|[(s' & f & -> & ->)|[(s' & e & ->)|(s' & y & ys' & -> & -> & H2')]]]; cbn -[Nat.max].
      + do 2 eexists. split; [reflexivity|]. cbn -[Nat.max]. exists n2'. split; [lia|]. done_takes.
      + do 2 eexists. split; [reflexivity|]. exact Logic.I.
      + do 2 eexists. split; [reflexivity|]. exact Logic.I.
      + do 2 eexists. split; [reflexivity|]. cbn -[Nat.max]. eexists. split; [reflexivity|]. done_takes.
  Qed.

  Lemma poll_takes : forall fuel b m k n, 2 <= fuel -> takes m k n ->
    exists m' r, merge_poll P1 P2 fuel b AtStart m = Ret (m', r) /\
    match r with
    | Ready (Ok (inl _)) => exists k', k = S k' /\ takes_less m' k' n
    | Ready _ => True
    | Pending _ _ => exists n', n = S n' /\ takes_less m' k n'
    end.
  Proof.
    intros [|[|fuel]] b m k n Hf H; [lia|lia|]. cbn [merge_poll].
    destruct (body_takes b m k n H) as (m' & p & -> & Hp). cbn [bind]. destruct p as [|r].
    - destruct Hp as ((k' & n' & H' & Hk & Hn) & _ & _ & Hm).
      destruct (body_takes b m' k' n' H') as (m'' & p' & -> & Hp'). cbn [bind]. destruct p' as [|r'].
      + destruct Hp' as (_ & Ha & Hb & _). destruct Hm; contradiction.
      + do 2 eexists. split; [reflexivity|]. destruct r' as [[[x|f]|e]|w at_]; auto.
        * destruct Hp' as (k'' & -> & ka & na & Ht & Hka & Hna). destruct k as [|k]; [lia|]. exists k. split; [reflexivity|].
          exists ka, na. splits; auto; lia.
        * destruct Hp' as (n'' & -> & ka & na & Ht & Hka & Hna). destruct n as [|n]; [lia|]. exists n. split; [reflexivity|].
          exists ka, na. splits; auto; lia.
    - do 2 eexists. split; [reflexivity|]. destruct r as [[[x|f]|e]|w at_]; auto.
  Qed.

  Lemma session_takes : forall fuel acts at_ m k n, 2 <= fuel -> at_ok at_ m -> takes m k n -> k + n < length acts ->
    exists m' out l, merge_session P1 P2 fuel acts at_ m = Ret (m', out, Some l).
  Proof.
    intros fuel acts. induction acts as [|act acts IH]; intros at_ m k n Hf Ha H Hl; cbn in Hl; [lia|]. cbn [merge_session].
    rewrite (poll_at_start fuel (order act) _ m (if_start (drop_first act) _ _ Ha)).
    destruct (poll_takes fuel (order act) m k n Hf H) as (m' & r & Ep & Hr). rewrite Ep. cbn [bind].
    destruct r as [[[x|f]|e]|w at1]; eauto.
    - destruct Hr as (k' & -> & ka & na & Ht & Hka & Hna).
      destruct (IH AtStart m' ka na Hf Logic.I Ht) as (m'' & out & l & ->); [lia|]. cbn. eauto.
    - destruct Hr as (n' & -> & ka & na & Ht & Hka & Hna).
      apply (IH at1 m' ka na Hf (poll_at_ok _ _ _ _ _ _ Ep) Ht). lia.
  Qed.

  Lemma new_takes : forall s1 s2 xs l1 n1 ys l2 n2, a_yields P1 s1 xs l1 n1 -> a_yields P2 s2 ys l2 n2 ->
    takes (a_merge_new P1 P2 s1 s2) (length xs + length ys) (Nat.max n1 n2).
  Proof.
    intros s1 s2 xs l1 n1 ys l2 n2 H1 H2. split; [left; discriminate|].
    exists (length xs), n1, (length ys), n2. cbn. splits; auto.
    - exists xs, l1. split; [now apply own_yields|reflexivity].
    - exists ys, l2. split; [now apply own_yields|reflexivity].
  Qed.

  (** ** Wakers *)
  Section Wakes.
    Context (Q1 Q2 : bool -> Prop) (HQ1 : producer_pending Q1 P1) (HQ2 : producer_pending Q2 P2).

    Definition side_wakes {S} (Q : bool -> Prop) (o : option (owned S (res (T + F) E))) : Prop :=
      match o with Some o => pending_only Q (o_future o) | None => True end.
    Definition wakes (m : a_merge S1 S2 T F E) : Prop := side_wakes Q1 (a_future1 m) /\ side_wakes Q2 (a_future2 m).

    Lemma poll_owned_wakes : forall S Q (o : owned S (res (T + F) E)), pending_only Q (o_future o) ->
      match poll_owned o with Ret (Pending w o') => Q w /\ pending_only Q (o_future o') | _ => True end.
    Proof.
      intros S Q [[p] q] H. unfold poll_owned. cbn in *. specialize (H q). destruct (p q) as [[q' [x|w f]]| |]; cbn; auto.
    Qed.

    Lemma body_wakes : forall b m, wakes m ->
      match merge_body P1 P2 b AtStart m with
      | Ret (m', Polled (Pending w at_)) => woken_by Q1 Q2 (at_, w) /\ wakes m'
      | Ret (m', _) => wakes m'
      | _ => True
      end.
    Proof.
      intros b [[o1|] [o2|]] [H1 H2]; cbn in H1, H2; auto; cbn;
        unfold await_first, await_second, await_select, select_left, select_right;
        try pose proof (poll_owned_wakes _ _ _ H1) as A1; try pose proof (poll_owned_wakes _ _ _ H2) as A2;
        try destruct b;
        repeat (match goal with |- context [poll_owned ?o] => destruct (poll_owned o) as [[[? [[?|?]|?]]|? ?]| |] end; cbn; auto);
        unfold wakes, woken_by; cbn; intuition auto; eexists _, _; splits; eauto using orb_comm.
    Qed.

    Lemma poll_wakes : forall fuel b m, wakes m ->
      match merge_poll P1 P2 fuel b AtStart m with
      | Ret (m', Pending w at_) => woken_by Q1 Q2 (at_, w) /\ wakes m'
      | Ret (m', _) => wakes m'
      | _ => True
      end.
    Proof.
      induction fuel as [|fuel IH]; intros b m H; [exact Logic.I|]. cbn [merge_poll]. pose proof (body_wakes b m H) as Hb.
      destruct (merge_body P1 P2 b AtStart m) as [[m' [|[r|w at_]]]| |]; cbn [bind]; auto. now apply IH.
    Qed.

    Lemma session_wakes : forall fuel acts at_ m, at_ok at_ m -> wakes m -> Forall (woken_by Q1 Q2) (merge_wakes P1 P2 fuel acts at_ m).
    Proof.
      intros fuel acts. induction acts as [|act acts IH]; intros at_ m Ha H; cbn [merge_wakes]; [constructor|].
      rewrite (poll_at_start fuel (order act) _ m (if_start (drop_first act) _ _ Ha)).
      pose proof (poll_wakes fuel (order act) m H) as Hp.
      destruct (merge_poll P1 P2 fuel (order act) AtStart m) as [[m' [[[x|f]|e]|w at1]]| |] eqn:Ep; try constructor; auto.
      - exact (IH AtStart m' Logic.I Hp).
      - apply Hp.
      - apply IH; [exact (poll_at_ok _ _ _ _ _ _ Ep)|apply Hp].
    Qed.

    Lemma new_wakes : forall s1 s2, wakes (a_merge_new P1 P2 s1 s2).
    Proof. intros. split; [exact HQ1|exact HQ2]. Qed.
  End Wakes.
End AsyncMerge.

Lemma a_yields_blocking : forall S T F E (P : a_producer S T F E) s xs l n, a_yields P s xs l n -> p_yields (blocking_producer P) s xs l.
Proof.
  intros S T F E P s xs l n H.
  induction H; [eapply p_yields_final|eapply p_yields_error|eapply p_yields_item]; cbn; eauto.
Qed.

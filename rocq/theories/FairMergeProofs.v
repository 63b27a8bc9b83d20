(** Proofs about Merge over endless time. *)
From Coq Require Import Bool List Arith Lia.
From Verif Require Import Prelude Traits ListFacts MergeModel MergeSpec MergeProofs FairMergeSpec.
Import ListNotations.
Set Implicit Arguments.

Section Run.
  Context {S1 S2 T F E : Type} (P1 : producer S1 T F E) (P2 : producer S2 T F E).

  (** Choice by choice. *)
  Fixpoint run (sched : list choice) (m : merge S1 S2) : outcome (merge S1 S2 * list T * option (res F E)) :=
    match sched with
    | [] => Ret (m, [], None)
    | c :: sched =>
        let* (m, p) := merge_step P1 P2 c m in
        match p with
        | Pending | Again => run sched m
        | Ready (Ok (inl x)) => let* (m, xs, l) := run sched m in Ret (m, x :: xs, l)
        | Ready (Ok (inr f)) => Ret (m, [], Some (Ok f))
        | Ready (Err e) => Ret (m, [], Some (Err e))
        end
    end.

  Lemma calls_run : forall sched n m, length sched <= n -> merge_calls P1 P2 n sched m = run sched m.
  Proof.
    induction sched as [|c sched IH]; intros n m Hn.
    - destruct n; reflexivity.
    - destruct n as [|n]; [cbn in Hn; lia|]. cbn [merge_calls merge_produce run].
      destruct (merge_step P1 P2 c m) as [[m1 p]| |]; [|reflexivity|reflexivity]. cbn [bind].
      destruct p as [| |[[x|f]|e]]; cbn [bind]; try reflexivity.
      + rewrite <- (IH (S n) m1); [reflexivity|cbn in Hn; lia].
      + rewrite <- (IH (S n) m1); [reflexivity|cbn in Hn; lia].
      + rewrite (IH n m1); [reflexivity|cbn in Hn; lia].
  Qed.

  Lemma run_app : forall sched1 sched2 m m1 xs, run sched1 m = Ret (m1, xs, None) ->
    run (sched1 ++ sched2) m = let* (m2, ys, l) := run sched2 m1 in Ret (m2, xs ++ ys, l).
  Proof.
    induction sched1 as [|c sched1 IH]; intros sched2 m m1 xs H; cbn [app run] in *.
    - injection H as <- <-. destruct (run sched2 m) as [[[m2 ys] l]| |]; reflexivity.
    - destruct (merge_step P1 P2 c m) as [[m2 p]| |]; try discriminate. cbn [bind] in *. destruct p as [| |[[x|f]|e]]; try discriminate; auto.
      destruct (run sched1 m2) as [[[m3 xs'] l]| |] eqn:E1; try discriminate. cbn in H. injection H as <- <- ->.
      rewrite (IH sched2 _ _ _ E1). destruct (run sched2 m3) as [[[m4 ys] l]| |]; reflexivity.
  Qed.

  Lemma run_app_end : forall sched1 sched2 m m1 xs l, run sched1 m = Ret (m1, xs, Some l) -> run (sched1 ++ sched2) m = Ret (m1, xs, Some l).
  Proof.
    induction sched1 as [|c sched1 IH]; intros sched2 m m1 xs l H; cbn [app run] in *; [discriminate|].
    destruct (merge_step P1 P2 c m) as [[m2 p]| |]; try discriminate. cbn [bind] in *. destruct p as [| |[[x|f]|e]]; auto.
    destruct (run sched1 m2) as [[[m3 xs'] l']| |] eqn:E1; try discriminate. cbn in H. injection H as <- <- ->. now rewrite (IH sched2 _ _ _ _ E1).
  Qed.

  Lemma until_run : forall sched n m, merge_until P1 P2 sched n m = run (beginning sched n) m.
  Proof. intros sched n m. unfold merge_until. apply calls_run. unfold beginning. now rewrite map_length, seq_length. Qed.

  Lemma beginning_app : forall sched n d, beginning sched (n + d) = beginning sched n ++ map sched (seq n d).
  Proof. intros sched n d. unfold beginning. now rewrite seq_app, map_app. Qed.

  (** ** Finite producers: it is enough that the futures are ready again and again *)
  Lemma run_ends : forall sched m X Y, merge_inv P1 P2 m X Y ->
    exists m' out l, run sched m = Ret (m', out, l) /\
    match l with
    | None => exists X' Y', merge_inv P1 P2 m' X' Y' /\ length X' + length Y' <= length X + length Y /\
        ((exists c1, In c1 sched /\ ready1 c1 = true) -> (exists c2, In c2 sched /\ ready2 c2 = true) -> length X' + length Y' < length X + length Y)
    | Some _ => True
    end.
  Proof.
    assert (G : forall sched m X Y, merge_inv P1 P2 m X Y ->
      exists m' out l, run sched m = Ret (m', out, l) /\
      match l with
      | None => exists X' Y', merge_inv P1 P2 m' X' Y' /\ (length X' + length Y' < length X + length Y \/ m' = m /\ X' = X /\ Y' = Y /\
          ((produce_future1 m <> None -> Forall (fun c => ready1 c = false) sched) /\ (produce_future2 m <> None -> Forall (fun c => ready2 c = false) sched)))
      | Some _ => True
      end).
    { induction sched as [|c sched IH]; intros m X Y HI.
      - exists m, [], None. split; [reflexivity|]. exists X, Y. split; [exact HI|]. right. splits; auto; constructor.
      - cbn [run]. destruct (merge_step_spec c HI) as (m1 & p & E1 & Hp). rewrite E1. cbn [bind]. destruct p as [| |[[x|f]|e]].
        + destruct Hp as [-> [Hr1 Hr2]]. destruct (IH m X Y HI) as (m' & out & l & E2 & Hl). exists m', out, l. split; [exact E2|].
          destruct l; auto. destruct Hl as (X' & Y' & HI' & [Hlt|(-> & -> & -> & HF1 & HF2)]); [eauto|]. exists X, Y. split; [exact HI|]. right. splits; auto.
        + destruct Hp as (f & X1 & Y1 & HI1 & HE & _). destruct (IH _ _ _ HI1) as (m' & out & l & E2 & Hl). exists m', out, l. split; [exact E2|].
          destruct l; auto. destruct Hl as (X' & Y' & HI' & Hlt). exists X', Y'. split; [exact HI'|]. left.
          assert (length X1 + length Y1 < length X + length Y) by (destruct HE as [[-> ->]|[-> ->]]; cbn; lia). destruct Hlt as [Hlt|(_ & -> & -> & _)]; lia.
        + destruct Hp as (X1 & Y1 & HI1 & HE). destruct (IH _ _ _ HI1) as (m' & out & l & E2 & Hl). rewrite E2. cbn. exists m', (x :: out), l. split; [reflexivity|].
          destruct l; auto. destruct Hl as (X' & Y' & HI' & Hlt). exists X', Y'. split; [exact HI'|]. left.
          assert (length X1 + length Y1 < length X + length Y) by (destruct HE as [[-> ->]|[-> ->]]; cbn; lia). destruct Hlt as [Hlt|(_ & -> & -> & _)]; lia.
        + do 3 eexists. split; [reflexivity|exact I].
        + do 3 eexists. split; [reflexivity|exact I]. }
    intros sched m X Y HI. destruct (G sched m X Y HI) as (m' & out & l & E1 & Hl). exists m', out, l. split; [exact E1|]. destruct l; auto.
    destruct Hl as (X' & Y' & HI' & Hl). exists X', Y'. split; [exact HI'|]. destruct Hl as [Hlt|(_ & -> & -> & HF1 & HF2)]; [split; [lia|auto]|].
    split; [lia|]. intros (c1 & Hc1 & R1) (c2 & Hc2 & R2). exfalso. destruct HI as (_ & _ & [HN|HN]).
    - specialize (HF1 HN). rewrite Forall_forall in HF1. rewrite (HF1 _ Hc1) in R1. discriminate.
    - specialize (HF2 HN). rewrite Forall_forall in HF2. rewrite (HF2 _ Hc2) in R2. discriminate.
  Qed.

  (** A stretch of the schedule with two kinds of choices in it. *)
  Lemma stretch : forall sched Q1 Q2 n, infinitely_often sched Q1 -> infinitely_often sched Q2 ->
    exists d, (exists c, In c (map sched (seq n d)) /\ Q1 c = true) /\ (exists c, In c (map sched (seq n d)) /\ Q2 c = true).
  Proof.
    intros sched Q1 Q2 n H1 H2. destruct (H1 n) as (a & Ha & E1). destruct (H2 n) as (b & Hb & E2).
    exists (S (a + b)). split; [exists (sched a)|exists (sched b)]; (split; [apply in_map; apply in_seq; lia|assumption]).
  Qed.

  Lemma terminates : forall sched m X Y, infinitely_often sched ready1 -> infinitely_often sched ready2 -> merge_inv P1 P2 m X Y ->
    exists n m' out l, run (beginning sched n) m = Ret (m', out, Some l).
  Proof.
    intros sched m X Y H1 H2 HI.
    assert (G : forall k n m' out X' Y', run (beginning sched n) m = Ret (m', out, None) -> merge_inv P1 P2 m' X' Y' -> length X' + length Y' <= k ->
      exists n m' out l, run (beginning sched n) m = Ret (m', out, Some l)).
    { induction k as [|k IH]; intros n m' out X' Y' Hn HI' Hk; destruct (stretch n H1 H2) as (d & HS1 & HS2);
        destruct (run_ends (map sched (seq n d)) HI') as (m2 & out2 & [l|] & E2 & Hl).
      1,3: exists (n + d), m2, (out ++ out2), l; rewrite beginning_app, (@run_app _ _ _ _ _ Hn), E2; reflexivity.
      - destruct Hl as (X2 & Y2 & _ & _ & Hlt). specialize (Hlt HS1 HS2). lia.
      - destruct Hl as (X2 & Y2 & HI2 & _ & Hlt). specialize (Hlt HS1 HS2). apply (IH (n + d) m2 (out ++ out2) X2 Y2); [|exact HI2|lia].
        rewrite beginning_app, (@run_app _ _ _ _ _ Hn), E2. reflexivity. }
    exact (G _ 0 m [] X Y eq_refl HI (le_n _)).
  Qed.

  (** ** Producers that may be endless *)
  Section Flows.
    Context (g1 g2 : nat -> option T) (st1 : nat -> S1) (st2 : nat -> S2).
    Hypothesis H1 : forall n, (forall j, j < n -> g1 j <> None) ->
      match g1 n with Some x => p_produce P1 (st1 n) = Ret (st1 (S n), Ok (inl x)) | None => exists s' f, p_produce P1 (st1 n) = Ret (s', Ok (inr f)) end.
    Hypothesis H2 : forall n, (forall j, j < n -> g2 j <> None) ->
      match g2 n with Some x => p_produce P2 (st2 n) = Ret (st2 (S n), Ok (inl x)) | None => exists s' f, p_produce P2 (st2 n) = Ret (s', Ok (inr f)) end.

    (** How far a side is. *)
    Definition at_pos {S} (st : nat -> S) (g : nat -> option T) (o : option S) (a : nat) : Prop :=
      (forall j, j < a -> g j <> None) /\ match o with Some s => s = st a | None => g a = None end.

    Definition both_at (m : merge S1 S2) (a b : nat) : Prop :=
      at_pos st1 g1 (produce_future1 m) a /\ at_pos st2 g2 (produce_future2 m) b /\ (produce_future1 m <> None \/ produce_future2 m <> None).

    Lemma at_next : forall S (st : nat -> S) g a x, (forall j, j < a -> g j <> None) -> g a = Some x -> at_pos st g (Some (st (Datatypes.S a))) (Datatypes.S a).
    Proof. intros S st g a x H E1. split; [|reflexivity]. intros j Hj. destruct (Nat.eq_dec j a) as [->|]; [congruence|apply H; lia]. Qed.

    Lemma step_at : forall c m a b, both_at m a b -> exists m' p a' b', merge_step P1 P2 c m = Ret (m', p) /\
      (picks1 c = true -> a < a' \/ g1 a = None) /\ (picks2 c = true -> b < b' \/ g2 b = None) /\
      match p with
      | Pending | Again => both_at m' a' b' /\ a' = a /\ b' = b
      | Ready (Ok (inl x)) => both_at m' a' b' /\ (g1 a = Some x /\ a' = S a /\ b' = b \/ g2 b = Some x /\ a' = a /\ b' = S b)
      | Ready (Ok (inr f)) => g1 a = None /\ g2 b = None /\ a' = a /\ b' = b
      | Ready (Err _) => False
      end.
    Proof.
      intros c [o1 o2] a b [[A1 A2] [[B1 B2] HN]]. cbn in *. unfold merge_step, merge_left, merge_right. cbn. unfold picks1, picks2.
      pose proof (H1 A1) as K1. pose proof (H2 B1) as K2.
      assert (N1 : at_pos st1 g1 o1 a) by (split; assumption). assert (N2 : at_pos st2 g2 o2 b) by (split; assumption).
      destruct o1 as [s1|], o2 as [s2|]; subst; [| | |destruct HN; congruence].
      - destruct (second_first c), (ready1 c) eqn:R1, (ready2 c) eqn:R2; cbn.
        all: try (exists (mk_merge (Some (st1 a)) (Some (st2 b))), Pending, a, b; (split; [reflexivity|]); (split; [discriminate|]); (split; [discriminate|]);
          (split; [split; [exact N1|split; [exact N2|now left]]|auto])).
        all: first
          [ destruct (g1 a) as [x|] eqn:G1;
            [ rewrite K1; cbn; exists (mk_merge (Some (st1 (S a))) (Some (st2 b))), (Ready (Ok (inl x))), (S a), b; (split; [reflexivity|]);
              (split; [intros _; left; lia|]); (split; [discriminate|]); (split; [|left; auto]); split; [exact (at_next _ _ A1 G1)|split; [exact N2|left; discriminate]]
            | destruct K1 as (s' & f & K1); rewrite K1; cbn; exists (mk_merge None (Some (st2 b))), Again, a, b; (split; [reflexivity|]);
              (split; [intros _; now right|]); (split; [discriminate|]); (split; [|auto]); split; [split; [exact A1|exact G1]|split; [exact N2|right; discriminate]] ]
          | destruct (g2 b) as [x|] eqn:G2;
            [ rewrite K2; cbn; exists (mk_merge (Some (st1 a)) (Some (st2 (S b)))), (Ready (Ok (inl x))), a, (S b); (split; [reflexivity|]);
              (split; [discriminate|]); (split; [intros _; left; lia|]); (split; [|right; auto]); split; [exact N1|split; [exact (at_next _ _ B1 G2)|left; discriminate]]
            | destruct K2 as (s' & f & K2); rewrite K2; cbn; exists (mk_merge (Some (st1 a)) None), Again, a, b; (split; [reflexivity|]);
              (split; [discriminate|]); (split; [intros _; now right|]); (split; [|auto]); split; [exact N1|split; [split; [exact B1|exact G2]|left; discriminate]] ] ].
      - destruct (ready1 c) eqn:R1; cbn.
        + destruct (g1 a) as [x|] eqn:G1.
          * rewrite K1. cbn. exists (mk_merge (Some (st1 (S a))) None), (Ready (Ok (inl x))), (S a), b. split; [reflexivity|].
            split; [intros _; left; lia|]. split; [intros _; right; exact B2|]. split; [|left; auto]. split; [exact (at_next _ _ A1 G1)|split; [exact N2|left; discriminate]].
          * destruct K1 as (s' & f & K1). rewrite K1. cbn. exists (mk_merge (Some s') None), (Ready (Ok (inr f))), a, b. split; [reflexivity|].
            split; [intros _; now right|]. split; [intros _; now right|]. auto.
        + exists (mk_merge (Some (st1 a)) None), Pending, a, b. split; [reflexivity|]. split; [discriminate|]. split; [intros _; now right|].
          split; [split; [exact N1|split; [exact N2|now left]]|auto].
      - destruct (ready2 c) eqn:R2; cbn.
        + destruct (g2 b) as [x|] eqn:G2.
          * rewrite K2. cbn. exists (mk_merge None (Some (st2 (S b)))), (Ready (Ok (inl x))), a, (S b). split; [reflexivity|].
            split; [intros _; now right|]. split; [intros _; left; lia|]. split; [|right; auto]. split; [exact N1|split; [exact (at_next _ _ B1 G2)|right; discriminate]].
          * destruct K2 as (s' & f & K2). rewrite K2. cbn. exists (mk_merge None (Some s')), (Ready (Ok (inr f))), a, b. split; [reflexivity|].
            split; [intros _; now right|]. split; [intros _; now right|]. auto.
        + exists (mk_merge None (Some (st2 b))), Pending, a, b. split; [reflexivity|]. split; [intros _; now right|]. split; [discriminate|].
          split; [split; [exact N1|split; [exact N2|now right]]|auto].
    Qed.

    Definition range (g : nat -> option T) (a a' : nat) : list T := flat_map (fun i => match g i with Some x => [x] | None => [] end) (seq a (a' - a)).

    Lemma range_nil : forall g a, range g a a = [].
    Proof. intros g a. unfold range. now rewrite Nat.sub_diag. Qed.

    Lemma range_cons : forall g a a' x, g a = Some x -> S a <= a' -> range g a a' = x :: range g (S a) a'.
    Proof. intros g a a' x E1 H. unfold range. replace (a' - a) with (S (a' - S a)) by lia. cbn. now rewrite E1. Qed.

    Lemma range_app : forall g a b c, a <= b -> b <= c -> range g a b ++ range g b c = range g a c.
    Proof. intros g a b c Hab Hbc. unfold range. rewrite <- flat_map_app. f_equal. replace b with (a + (b - a)) at 2 by lia. rewrite <- seq_app. f_equal. lia. Qed.

    Lemma run_at : forall sched m a b, both_at m a b -> exists m' out l a' b', run sched m = Ret (m', out, l) /\
      a <= a' /\ b <= b' /\ (g1 a = None -> a' = a) /\ (g2 b = None -> b' = b) /\ interleave (range g1 a a') (range g2 b b') out /\
      ((exists c, In c sched /\ picks1 c = true) -> a < a' \/ g1 a' = None) /\ ((exists c, In c sched /\ picks2 c = true) -> b < b' \/ g2 b' = None) /\
      match l with
      | None => both_at m' a' b'
      | Some (Ok _) => g1 a' = None /\ g2 b' = None
      | Some (Err _) => False
      end.
    Proof.
      induction sched as [|c sched IH]; intros m a b HB.
      - exists m, [], None, a, b. split; [reflexivity|]. split; [lia|]. split; [lia|]. split; [auto|]. split; [auto|]. rewrite !range_nil. split; [constructor|].
        split; [intros (c & [] & _)|]. split; [intros (c & [] & _)|exact HB].
      - cbn [run]. destruct (step_at c HB) as (m1 & p & a1 & b1 & E1 & Hp1 & Hp2 & Hp). rewrite E1. cbn [bind].
        assert (G : forall a' b', a1 <= a' -> b1 <= b' -> a <= a1 -> b <= b1 ->
          ((exists c, In c sched /\ picks1 c = true) -> a1 < a' \/ g1 a' = None) -> ((exists c, In c sched /\ picks2 c = true) -> b1 < b' \/ g2 b' = None) ->
          (g1 a = None -> a' = a) -> (g2 b = None -> b' = b) ->
          ((exists c0, In c0 (c :: sched) /\ picks1 c0 = true) -> a < a' \/ g1 a' = None) /\ ((exists c0, In c0 (c :: sched) /\ picks2 c0 = true) -> b < b' \/ g2 b' = None)).
        { intros a' b' La Lb La1 Lb1 Q1 Q2 Z1 Z2. split; intros (c0 & [<-|Hin] & Hc).
          - destruct (Hp1 Hc) as [Hlt|Hz]; [left; lia|right]. now rewrite (Z1 Hz).
          - destruct Q1 as [Hlt|Hz]; eauto. left. lia.
          - destruct (Hp2 Hc) as [Hlt|Hz]; [left; lia|right]. now rewrite (Z2 Hz).
          - destruct Q2 as [Hlt|Hz]; eauto. left. lia. }
        destruct p as [| |[[x|f]|e]]; [| | | |destruct Hp].
        1,2: destruct Hp as (HB1 & -> & ->); destruct (IH m1 a b HB1) as (m' & out & l & a' & b' & E2 & La & Lb & Z1 & Z2 & HI & Q1 & Q2 & Hl);
          exists m', out, l, a', b'; (split; [exact E2|]); (split; [exact La|]); (split; [exact Lb|]); (split; [exact Z1|]); (split; [exact Z2|]); (split; [exact HI|]);
          destruct (G a' b' La Lb (le_n _) (le_n _) Q1 Q2 Z1 Z2) as [G1 G2]; (split; [exact G1|]); (split; [exact G2|exact Hl]).
        + destruct Hp as (HB1 & Hp). destruct (IH m1 a1 b1 HB1) as (m' & out & l & a' & b' & E2 & La & Lb & Z1 & Z2 & HI & Q1 & Q2 & Hl).
          exists m', (x :: out), l, a', b'. split; [now rewrite E2|].
          assert (LA : a <= a1 /\ b <= b1) by (destruct Hp as [(_ & -> & ->)|(_ & -> & ->)]; lia).
          assert (ZZ : (g1 a = None -> a' = a) /\ (g2 b = None -> b' = b)).
          { destruct Hp as [(Ex & -> & ->)|(Ex & -> & ->)]; split; intros Hz; auto; congruence. }
          destruct LA as [LA LB], ZZ as [ZA ZB]. split; [lia|]. split; [lia|]. split; [exact ZA|]. split; [exact ZB|]. split.
          { destruct Hp as [(Ex & -> & ->)|(Ex & -> & ->)]; [rewrite (range_cons g1 Ex La)|rewrite (range_cons g2 Ex Lb)]; now constructor. }
          destruct (G a' b' La Lb LA LB Q1 Q2 ZA ZB) as [G1 G2]. split; [exact G1|]. split; [exact G2|exact Hl].
        + destruct Hp as (Z1 & Z2 & -> & ->). exists m1, [], (Some (Ok f)), a, b. split; [reflexivity|]. split; [lia|]. split; [lia|]. split; [auto|]. split; [auto|].
          rewrite !range_nil. split; [constructor|]. split; [auto|]. split; [auto|]. auto.
    Qed.

    Lemma fair_run : forall sched m, infinitely_often sched picks1 -> infinitely_often sched picks2 -> both_at m 0 0 ->
      forall k, exists n m' out l a b, run (beginning sched n) m = Ret (m', out, l) /\ (forall e, l <> Some (Err e)) /\
        interleave (range g1 0 a) (range g2 0 b) out /\ (k <= a \/ g1 a = None) /\ (k <= b \/ g2 b = None) /\
        match l with None => both_at m' a b | Some _ => g1 a = None /\ g2 b = None end.
    Proof.
      intros sched m F1 F2 HB. induction k as [|k (n & m1 & out & l & a & b & E1 & Hl & HI & Ka & Kb & Hend)].
      - exists 0, m, [], None, 0, 0. split; [reflexivity|]. split; [discriminate|]. split; [constructor|]. split; [left; lia|]. split; [left; lia|exact HB].
      - destruct l as [l|].
        { exists n, m1, out, (Some l), a, b. destruct Hend as [Z1 Z2]. split; [exact E1|]. split; [exact Hl|]. auto 8. }
        destruct (stretch n F1 F2) as (d & P1' & P2').
        destruct (run_at (map sched (seq n d)) Hend) as (m2 & out2 & l2 & a' & b' & E2 & La & Lb & Z1 & Z2 & HI2 & Q1 & Q2 & Hl2).
        exists (n + d), m2, (out ++ out2), l2, a', b'. split; [rewrite beginning_app, (@run_app _ _ _ _ _ E1), E2; reflexivity|].
        split; [intros e ->; exact Hl2|]. split; [rewrite <- (range_app g1 (Nat.le_0_l a) La), <- (range_app g2 (Nat.le_0_l b) Lb); now apply il_app|].
        split; [|split].
        + destruct (Q1 P1') as [Hlt|Hz]; [|now right]. destruct Ka as [Ka|Hz]; [left; lia|right]. now rewrite (Z1 Hz).
        + destruct (Q2 P2') as [Hlt|Hz]; [|now right]. destruct Kb as [Kb|Hz]; [left; lia|right]. now rewrite (Z2 Hz).
        + destruct l2 as [[f|e]|]; [exact Hl2|destruct Hl2|exact Hl2].
    Qed.
  End Flows.
End Run.

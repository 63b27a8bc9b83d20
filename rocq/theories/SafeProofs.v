(** Proofs: panic freedom is preserved by adaptors, pipes and codecs. *)
From Coq Require Import Bool List Arith Lia.
From Coq.Init Require Import Byte.
From Verif Require Import Prelude ListFacts QueueModel QueueSpec QueueProofs Traits BasicModel AdaptorModel ScramblerModel MergeModel CodecModel
  EndianModel TowerModel Contracts AdaptorSpec BasicSpec BasicProofs ScramblerProofs RulesSpec SafeSpec.
Import ListNotations.
Set Implicit Arguments.

(** ** [safely] *)

Lemma safely_bind : forall X Y (Q : X -> Prop) (Q' : Y -> Prop) o k,
  safely Q o -> (forall x, Q x -> safely Q' (k x)) -> safely Q' (bind o k).
Proof. intros X Y Q Q' [x| |] k H Hk; cbn in *; auto. Qed.
Lemma safely_weaken : forall X (Q Q' : X -> Prop) o, safely Q o -> (forall x, Q x -> Q' x) -> safely Q' o.
Proof. intros X Q Q' [x| |] H Hk; cbn in *; auto. Qed.
Lemma safely_eq : forall X (Q : X -> Prop) o, safely Q o -> safely (fun x => Q x /\ o = Ret x) o.
Proof. intros X Q [x| |] H; cbn in *; auto. Qed.
Lemma safely_no_panic : forall X (Q : X -> Prop) o, safely Q o -> o <> Panic.
Proof. intros X Q [x| |] H; cbn in *; congruence. Qed.

(** ** [calm] as a coinductive notion *)
Section Calm.
  Context {S M O A : Type} (may : M -> O -> bool) (saw : M -> O -> A -> M) (call : O -> S -> outcome (S * A)).

  Lemma calm_step : forall s m o, calm may saw call s m -> may m o = true ->
    safely (fun x => calm may saw call (fst x) (saw m o (snd x))) (call o s).
  Proof.
    intros s m o H Ho. destruct (call o s) as [[s' a]| |] eqn:Ec; cbn.
    - intros ops Hp. apply (H (o :: ops)). cbn. rewrite Ho, Ec. cbn. rewrite Hp. reflexivity.
    - apply (H [o]). cbn. rewrite Ho, Ec. reflexivity.
    - exact Logic.I.
  Qed.

  Lemma calm_intro : forall (Inv : S -> M -> Prop),
    (forall s m o, Inv s m -> may m o = true -> safely (fun x => Inv (fst x) (saw m o (snd x))) (call o s)) ->
    forall s m, Inv s m -> calm may saw call s m.
  Proof.
    intros Inv Hstep s m HI ops. revert s m HI. induction ops as [|o ops IH]; intros s m HI; cbn; [discriminate|].
    destruct (may m o) eqn:Ho; [|discriminate].
    specialize (Hstep s m o HI Ho). destruct (call o s) as [[s' a]| |]; cbn in *; try easy.
    specialize (IH _ _ Hstep). destruct (obeying may saw call ops (saw m o a) s') as [[[? ?] ?]| |]; cbn; congruence.
  Qed.

  (** Callers that do less. *)
  Lemma calm_mono : forall (le : M -> M -> Prop),
    (forall m m' o, le m m' -> may m o = true -> may m' o = true /\ forall a, le (saw m o a) (saw m' o a)) ->
    forall s m m', le m m' -> calm may saw call s m' -> calm may saw call s m.
  Proof.
    intros le Hle s m m' Hm Hc.
    apply calm_intro with (Inv := fun s m => exists m', le m m' /\ calm may saw call s m'); [|eauto].
    clear s m m' Hm Hc. intros s m o (m' & Hm & Hc) Ho. destruct (Hle _ _ _ Hm Ho) as [Ho' Hs].
    eapply safely_weaken; [apply (calm_step Hc Ho')|]. intros [s' a] H. cbn in *. eauto.
  Qed.
End Calm.

(** ** Single calls on calm producers and consumers *)
Section Calls.
  Context {S T F E : Type}.

  (** Calm, with [k] items on display. *)
  Definition calm_p (slurps : bool) (P : bulk_producer S T F E) (s : S) (k : nat) : Prop :=
    calm (p_calls slurps) (@p_saw T F E) (p_do P) s (mk_pmon false k).
  Definition calm_c (C : bulk_consumer S T F E) (s : S) (k w : nat) : Prop :=
    calm (@c_calls T F) (@c_saw T F E) (c_do C) s (mk_cmon false k w).

  Section P.
    Variables (sl : bool) (P : bulk_producer S T F E).

    Lemma calm_p_less : forall s k k', calm_p sl P s k' -> k <= k' -> calm_p sl P s k.
    Proof.
      intros s k k' H Hk.
      apply calm_mono with (le := fun m m' => pm_over m' = pm_over m /\ pm_shown m <= pm_shown m') (m' := mk_pmon false k'); [|cbn; auto|exact H].
      intros [o1 k1] [o2 k2] o [E1 E2] Ho; cbn in E1, E2; subst o2. split.
      - unfold p_calls, p_may in *. cbn [pm_over pm_shown] in *. destruct o; auto.
        destruct (n <=? k1) eqn:El; [|rewrite andb_false_r in Ho; discriminate].
        apply Nat.leb_le in El. replace (n <=? k2) with true; [exact Ho|]. symmetry. apply Nat.leb_le. lia.
      - intros a. cbn. split; [reflexivity|]. destruct o, a as [r|r|[[ys|f]|e]|b r]; cbn; lia.
    Qed.

    Lemma calm_produce : forall s k, calm_p sl P s k ->
      safely (fun x => forall i, snd x = Ok (inl i) -> calm_p sl P (fst x) (k - 1)) (p_produce P s).
    Proof.
      intros s k H. pose proof (@calm_step _ _ _ _ _ _ _ _ _ PProduce H eq_refl) as Hs. cbn in Hs.
      destruct (p_produce P s) as [[s' r]| |]; cbn in *; auto. intros i ->. exact Hs.
    Qed.
    Lemma calm_slurp : forall s k, sl = true -> calm_p sl P s k ->
      safely (fun x => snd x = Ok tt -> calm_p sl P (fst x) k) (p_slurp P s).
    Proof.
      intros s k Hsl H. pose proof (@calm_step _ _ _ _ _ _ _ _ _ PSlurp H Hsl) as Hs. cbn in Hs.
      destruct (p_slurp P s) as [[s' r]| |]; cbn in *; auto. intros ->. exact Hs.
    Qed.
    Lemma calm_expose : forall s k, calm_p sl P s k ->
      safely (fun x => forall ys, snd x = Ok (inl ys) -> calm_p sl P (fst x) (length ys)) (p_expose P s).
    Proof.
      intros s k H. pose proof (@calm_step _ _ _ _ _ _ _ _ _ PExpose H eq_refl) as Hs. cbn in Hs.
      destruct (p_expose P s) as [[s' r]| |]; cbn in *; auto. intros i ->. exact Hs.
    Qed.
    Lemma calm_consider : forall s k n, calm_p sl P s k -> n <= k ->
      safely (fun x => snd x = Ok tt -> calm_p sl P (fst x) (k - n)) (p_consider P n s).
    Proof.
      intros s k n H Hn. assert (Ho : p_calls sl (mk_pmon false k) (@PConsider T n) = true).
      { unfold p_calls, p_may. cbn [pm_over pm_shown]. apply Nat.leb_le in Hn. now rewrite Hn. }
      pose proof (@calm_step _ _ _ _ _ _ _ _ _ (PConsider n) H Ho) as Hs. cbn in Hs.
      destruct (p_consider P n s) as [[s' r]| |]; cbn in *; auto. intros ->. exact Hs.
    Qed.
    Lemma calm_bulk_produce : forall s k buf, calm_p sl P s k ->
      safely (fun x => forall n, snd (snd x) = Ok (inl n) -> calm_p sl P (fst x) 0) (p_bulk_produce P buf s).
    Proof.
      intros s k buf H. pose proof (@calm_step _ _ _ _ _ _ _ _ _ (PBulkProduce buf) H eq_refl) as Hs. cbn in Hs.
      destruct (p_bulk_produce P buf s) as [[s' [b r]]| |]; cbn in *; auto. intros i ->. exact Hs.
    Qed.
  End P.

  Section C.
    Variable C : bulk_consumer S T F E.

    Lemma calm_c_less : forall s k w k' w', calm_c C s k' w' -> k <= k' -> w <= w' -> calm_c C s k w.
    Proof.
      intros s k w k' w' H Hk Hw.
      apply calm_mono with (le := fun m m' => cm_over m' = cm_over m /\ cm_shown m <= cm_shown m' /\ cm_written m <= cm_written m')
        (m' := mk_cmon false k' w'); [|cbn; auto|exact H].
      intros [o1 k1 w1] [o2 k2 w2] o (E1 & E2 & E3) Ho; cbn in E1, E2, E3; subst o2. split.
      - unfold c_calls, c_may in *. cbn [cm_over cm_shown cm_written] in *. destruct o; auto.
        + destruct (length ys <=? k1) eqn:El; [|rewrite andb_false_r in Ho; discriminate].
          apply Nat.leb_le in El. replace (length ys <=? k2) with true; [exact Ho|]. symmetry. apply Nat.leb_le. lia.
        + destruct (n <=? w1) eqn:El; [|rewrite andb_false_r in Ho; discriminate].
          apply Nat.leb_le in El. replace (n <=? w2) with true; [exact Ho|]. symmetry. apply Nat.leb_le. lia.
      - intros a. destruct o, a as [r|[n1|e1]|[n1|e1]|]; cbn -[Nat.min Nat.max]; repeat split; lia.
    Qed.

    Lemma calm_consume : forall s k w x, calm_c C s k w ->
      safely (fun x => snd x = Ok tt -> calm_c C (fst x) 0 0) (c_consume C x s).
    Proof.
      intros s k w x H. pose proof (@calm_step _ _ _ _ _ _ _ _ _ (CConsume x) H eq_refl) as Hs. cbn in Hs.
      destruct (c_consume C x s) as [[s' r]| |]; cbn in *; auto. intros ->. exact Hs.
    Qed.
    Lemma calm_close : forall s k w f, calm_c C s k w -> safely (fun _ => True) (c_close C f s).
    Proof.
      intros s k w f H. pose proof (@calm_step _ _ _ _ _ _ _ _ _ (CClose f) H eq_refl) as Hs. cbn in Hs.
      destruct (c_close C f s) as [[s' r]| |]; cbn in *; auto.
    Qed.
    Lemma calm_flush : forall s k w, calm_c C s k w ->
      safely (fun x => snd x = Ok tt -> calm_c C (fst x) k w) (c_flush C s).
    Proof.
      intros s k w H. pose proof (@calm_step _ _ _ _ _ _ _ _ _ CFlush H eq_refl) as Hs. cbn in Hs.
      destruct (c_flush C s) as [[s' r]| |]; cbn in *; auto. intros ->. exact Hs.
    Qed.
    Lemma calm_expose_slots : forall s k w, calm_c C s k w ->
      safely (fun x => forall n, snd x = Ok n -> calm_c C (fst x) n 0) (c_expose C s).
    Proof.
      intros s k w H. pose proof (@calm_step _ _ _ _ _ _ _ _ _ CExpose H eq_refl) as Hs. cbn in Hs.
      destruct (c_expose C s) as [[s' r]| |]; cbn in *; auto. intros i ->. exact Hs.
    Qed.
    Lemma calm_write : forall s k w ys, calm_c C s k w -> length ys <= k -> calm_c C (c_write C ys s) k (Nat.max w (length ys)).
    Proof.
      intros s k w ys H Hy. assert (Ho : c_calls (mk_cmon false k w) (@CWrite T F ys) = true).
      { unfold c_calls, c_may. cbn [cm_over cm_shown]. now apply Nat.leb_le. }
      pose proof (@calm_step _ _ _ _ _ _ _ _ _ (CWrite ys) H Ho) as Hs. cbn -[Nat.min Nat.max] in Hs. now rewrite Nat.min_r in Hs.
    Qed.
    Lemma calm_consume_slots : forall s k w n, calm_c C s k w -> n <= w ->
      safely (fun x => snd x = Ok tt -> calm_c C (fst x) (k - n) (w - n)) (c_consume_slots C n s).
    Proof.
      intros s k w n H Hn. assert (Ho : c_calls (mk_cmon false k w) (@CConsumeSlots T F n) = true).
      { unfold c_calls, c_may. cbn [cm_over cm_written]. apply Nat.leb_le in Hn. now rewrite Hn. }
      pose proof (@calm_step _ _ _ _ _ _ _ _ _ (CConsumeSlots n) H Ho) as Hs. cbn in Hs.
      destruct (c_consume_slots C n s) as [[s' r]| |]; cbn in *; auto. intros ->. exact Hs.
    Qed.
    Lemma calm_bulk_consume : forall s k w buf, calm_c C s k w ->
      safely (fun x => forall n, snd x = Ok n -> calm_c C (fst x) 0 0) (c_bulk_consume C buf s).
    Proof.
      intros s k w buf H. pose proof (@calm_step _ _ _ _ _ _ _ _ _ (CBulkConsume buf) H eq_refl) as Hs. cbn in Hs.
      destruct (c_bulk_consume C buf s) as [[s' r]| |]; cbn in *; auto. intros i ->. exact Hs.
    Qed.
  End C.
End Calls.

(** ** How to show that something is calm *)
Section Intro.
  Context {S T F E : Type}.

  Section P.
    Variables (sl : bool) (produce : S -> outcome (S * res (T + F) E)) (slurp : S -> outcome (S * res unit E))
      (expose : S -> outcome (S * res (list T + F) E)) (consider : nat -> S -> outcome (S * res unit E)).
    Variable Inv : S -> nat -> Prop.
    Hypothesis Hless : forall s k, Inv s k -> Inv s 0.
    Hypothesis Hproduce : forall s k, Inv s k -> safely (fun x => forall i, snd x = Ok (inl i) -> Inv (fst x) (k - 1)) (produce s).
    Hypothesis Hslurp : forall s k, sl = true -> Inv s k -> safely (fun x => snd x = Ok tt -> Inv (fst x) k) (slurp s).
    Hypothesis Hexpose : forall s k, Inv s k -> safely (fun x => forall ys, snd x = Ok (inl ys) -> Inv (fst x) (length ys)) (expose s).
    Hypothesis Hconsider : forall s k n, Inv s k -> n <= k -> safely (fun x => snd x = Ok tt -> Inv (fst x) (k - n)) (consider n s).

    Lemma calm_producer_of : forall s k, Inv s k -> calm_p sl (bulk_producer_of produce slurp expose consider) s k.
    Proof.
      intros s k HI.
      apply calm_intro with (Inv := fun s m => pm_over m = true \/ Inv s (pm_shown m)); [|now right].
      clear s k HI. intros s [over k] o HI Ho. unfold p_calls, p_may in Ho. cbn [pm_over pm_shown] in *.
      destruct over; [discriminate|]. destruct HI as [HI|HI]; [discriminate|]. cbn in Ho.
      destruct o as [| | |n|buf]; cbn [p_do].
      - eapply safely_bind; [exact (Hproduce HI)|]. intros [s' r] H. cbn in *. destruct r as [[i|f]|e]; cbn; auto. right. eauto.
      - eapply safely_bind; [exact (Hslurp Ho HI)|]. intros [s' r] H. cbn in *. destruct r as [[]|e]; cbn; auto.
      - eapply safely_bind; [exact (Hexpose HI)|]. intros [s' r] H. cbn in *. destruct r as [[i|f]|e]; cbn; auto.
      - rewrite andb_true_r in Ho. apply Nat.leb_le in Ho. eapply safely_bind; [exact (Hconsider HI Ho)|].
        intros [s' r] H. cbn in *. destruct r as [[]|e]; cbn; auto.
      - cbn. unfold default_bulk_produce. eapply safely_bind with (Q := fun x => forall n, snd (snd x) = Ok (inl n) -> Inv (fst x) 0).
        + eapply safely_bind; [exact (Hexpose HI)|]. intros [s' r] H. cbn [fst snd] in H. destruct r as [[ys|f]|e]; [|cbn; discriminate..].
          eapply safely_bind; [exact (Hconsider (H _ eq_refl) (Nat.le_min_l _ _))|].
          intros [s2 r2] H2. cbn [fst snd] in H2. destruct r2 as [[]|e]; [|cbn; discriminate].
          cbn -[Nat.min]. intros n _. exact (Hless (H2 eq_refl)).
        + intros [s' [b r]] H. cbn in *. destruct r as [[n|f]|e]; cbn; eauto.
    Qed.
  End P.

  Section C.
    Variables (consume : T -> S -> outcome (S * res unit E)) (close : F -> S -> outcome (S * res unit E)) (flush : S -> outcome (S * res unit E))
      (expose : S -> outcome (S * res nat E)) (write : list T -> S -> S) (slots : nat -> S -> outcome (S * res unit E)).
    Variable Inv : S -> nat -> nat -> Prop.
    Hypothesis Hless : forall s k w, Inv s k w -> Inv s 0 0.
    Hypothesis Hconsume : forall x s k w, Inv s k w -> safely (fun x => snd x = Ok tt -> Inv (fst x) 0 0) (consume x s).
    Hypothesis Hclose : forall f s k w, Inv s k w -> safely (fun _ => True) (close f s).
    Hypothesis Hflush : forall s k w, Inv s k w -> safely (fun x => snd x = Ok tt -> Inv (fst x) k w) (flush s).
    Hypothesis Hexpose : forall s k w, Inv s k w -> safely (fun x => forall n, snd x = Ok n -> Inv (fst x) n 0) (expose s).
    Hypothesis Hwrite : forall ys s k w, Inv s k w -> length ys <= k -> Inv (write ys s) k (Nat.max w (length ys)).
    Hypothesis Hslots : forall n s k w, Inv s k w -> n <= w -> safely (fun x => snd x = Ok tt -> Inv (fst x) (k - n) (w - n)) (slots n s).

    Lemma calm_consumer_of : forall s k w, Inv s k w -> calm_c (bulk_consumer_of consume close flush expose write slots) s k w.
    Proof.
      intros s k w HI.
      apply calm_intro with (Inv := fun s m => cm_over m = true \/ Inv s (cm_shown m) (cm_written m)); [|now right].
      clear s k w HI. intros s [over k w] o HI Ho. unfold c_calls, c_may in Ho. cbn [cm_over cm_shown cm_written] in *.
      destruct over; [discriminate|]. destruct HI as [HI|HI]; [discriminate|]. cbn in Ho.
      destruct o as [x|f| | |ys|n|buf]; cbn [c_do].
      - eapply safely_bind; [exact (Hconsume x HI)|]. intros [s' r] H. cbn in *. destruct r as [[]|e]; cbn; auto.
      - eapply safely_bind; [exact (Hclose f HI)|]. intros [s' r] H. cbn in *. auto.
      - eapply safely_bind; [exact (Hflush HI)|]. intros [s' r] H. cbn in *. destruct r as [[]|e]; cbn; auto.
      - eapply safely_bind; [exact (Hexpose HI)|]. intros [s' r] H. cbn in *. destruct r as [n|e]; cbn; auto.
      - apply Nat.leb_le in Ho. cbn -[Nat.min Nat.max]. right. rewrite Nat.min_r by exact Ho. now apply Hwrite.
      - rewrite andb_true_r in Ho. apply Nat.leb_le in Ho. eapply safely_bind; [exact (Hslots HI Ho)|].
        intros [s' r] H. cbn in *. destruct r as [[]|e]; cbn; auto.
      - cbn. unfold default_bulk_consume. eapply safely_bind with (Q := fun x => forall n, snd x = Ok n -> Inv (fst x) 0 0).
        + eapply safely_bind; [exact (Hexpose HI)|]. intros [s' r] H. cbn [fst snd] in H. destruct r as [m|e]; [|cbn; discriminate..].
          set (n := Nat.min m (length buf)).
          assert (Hn : length (firstn n buf) = n) by (rewrite firstn_length; lia).
          eapply safely_bind; [refine (@Hslots n (write (firstn n buf) s') m (Nat.max 0 (length (firstn n buf))) _ _)|].
          * apply Hwrite; [exact (H _ eq_refl)|lia].
          * lia.
          * intros [s2 r2] H2. cbn [fst snd] in H2. destruct r2 as [[]|e]; [|cbn; discriminate].
            cbn -[Nat.min]. intros i _. exact (Hless (H2 eq_refl)).
        + intros [s' r] H. cbn in *. destruct r as [n|e]; cbn; eauto.
    Qed.
  End C.
End Intro.

(** ** Adaptors *)
Section Adaptors.
  Context {S T F E : Type}.

  Lemma limit_producer_calm : forall sl (P : bulk_producer S T F E) s n k, calm_p sl P s k -> calm_p sl (limit_producer P) (limit_new s n) 0.
  Proof.
    intros sl P s n k H.
    apply calm_producer_of with (Inv := fun s k => k <= lim_remaining s /\ exists k', k <= k' /\ calm_p sl P (lim_inner s) k');
      [..|cbn; split; [lia|exists k; split; [lia|exact H]]]; clear s n k H.
    - intros s k (H & k' & Hk & Hc). split; [lia|]. exists k'. split; [lia|exact Hc].
    - intros [i [|r]] k (H & k' & Hk & Hc); unfold limit_produce; cbn [lim_remaining lim_inner] in *; [cbn; discriminate|].
      eapply safely_bind; [apply (calm_produce Hc)|]. intros [i' [[x|f]|e]] Hi; cbn in *; try discriminate.
      intros y Ey. split; [lia|]. exists (k' - 1). split; [lia|eauto].
    - intros s k Hsl (H & k' & Hk & Hc). unfold limit_slurp. eapply safely_bind; [apply (calm_slurp Hsl Hc)|].
      intros [i' r] Hi. cbn in *. intros Hr. split; [exact H|]. exists k'. auto.
    - intros [i rem] k (H & k' & Hk & Hc); unfold limit_expose; cbn [lim_remaining lim_inner] in *.
      destruct (rem =? 0) eqn:Er; [cbn; discriminate|].
      eapply safely_bind; [apply (calm_expose Hc)|]. intros [i' [[ys|f]|e]] Hi; cbn [fst snd] in Hi; try (cbn; discriminate).
      rewrite slice_to_ok by lia. cbn -[Nat.min]. intros zs Ez. injection Ez as <-. rewrite firstn_length. split; [lia|].
      exists (length ys). split; [lia|auto].
    - intros s k n (H & k' & Hk & Hc) Hn. unfold limit_consider. rewrite csub_ok by lia. cbn [bind].
      eapply safely_bind; [apply (@calm_consider _ _ _ _ _ _ _ _ n Hc); lia|].
      intros [i' r] Hi. cbn in *. intros Hr. split; [lia|]. exists (k' - n). split; [lia|auto].
  Qed.

  Lemma limit_consumer_calm : forall (C : bulk_consumer S T F E) s n k w, calm_c C s k w -> calm_c (limit_consumer C) (limit_new s n) 0 0.
  Proof.
    intros C s n k w H.
    apply calm_consumer_of with (Inv := fun s k w => k <= lim_remaining s /\ w <= k /\ exists k' w', k <= k' /\ w <= w' /\ calm_c C (lim_inner s) k' w');
      [..|cbn; splits; [lia|lia|exists k, w; splits; [lia|lia|exact H]]]; clear s n k w H.
    - intros s k w (H & Hw & k' & w' & H1 & H2 & Hc). splits; [lia|lia|]. exists k', w'. splits; [lia|lia|exact Hc].
    - intros x [i [|r]] k w (H & Hw & k' & w' & H1 & H2 & Hc); unfold limit_consume; cbn [lim_remaining lim_inner] in *; [cbn; discriminate|].
      eapply safely_bind; [apply (calm_consume x Hc)|]. intros [i' [[]|e]] Hi; cbn in *; try discriminate.
      intros _. splits; [lia|lia|]. exists 0, 0. splits; auto.
    - intros f s k w (H & Hw & k' & w' & H1 & H2 & Hc). unfold limit_close. eapply safely_bind; [apply (calm_close f Hc)|].
      intros [i' r] _. exact Logic.I.
    - intros s k w (H & Hw & k' & w' & H1 & H2 & Hc). unfold limit_flush. eapply safely_bind; [apply (calm_flush Hc)|].
      intros [i' [[]|e]] Hi; cbn in *; try discriminate. intros _. splits; auto. exists k', w'. auto.
    - intros [i rem] k w (H & Hw & k' & w' & H1 & H2 & Hc); unfold limit_expose_slots; cbn [lim_remaining lim_inner] in *.
      destruct (rem =? 0) eqn:Er; [cbn; discriminate|].
      eapply safely_bind; [apply (calm_expose_slots Hc)|]. intros [i' [n|e]] Hi; cbn [fst snd] in Hi; try (cbn; discriminate).
      cbn -[Nat.min]. intros m Em. injection Em as <-. splits; [lia|lia|]. exists n, 0. splits; [lia|lia|auto].
    - intros ys s k w (H & Hw & k' & w' & H1 & H2 & Hc) Hy. cbn -[Nat.max]. splits; [lia|lia|].
      exists k', (Nat.max w' (length ys)). splits; [lia|lia|]. apply calm_write; [exact Hc|lia].
    - intros n s k w (H & Hw & k' & w' & H1 & H2 & Hc) Hn. unfold limit_consume_slots. rewrite csub_ok by lia. cbn [bind].
      eapply safely_bind; [apply (@calm_consume_slots _ _ _ _ _ _ _ _ n Hc); lia|].
      intros [i' [[]|e]] Hi; cbn in *; try discriminate. intros _. splits; [lia|lia|]. exists (k' - n), (w' - n). splits; [lia|lia|auto].
  Qed.

  Lemma map_final_producer_calm : forall B sl (P : bulk_producer S T F E) s (g : F -> B) k, calm_p sl P s k ->
    calm_p sl (map_final_producer P) (with_fun_new s g) k.
  Proof.
    intros B sl P s g k H.
    apply calm_producer_of with (Inv := fun s k => wf_fun s <> None /\ calm_p sl P (wf_inner s) k); [..|cbn; split; [discriminate|exact H]]; clear s g k H.
    - intros s k (H & Hc). split; [exact H|]. eapply calm_p_less; [exact Hc|lia].
    - intros [i [g|]] k (H & Hc); [|now elim H]. unfold map_final_produce. cbn [wf_inner wf_fun] in *.
      eapply safely_bind; [apply (calm_produce Hc)|]. intros [i' [[x|f]|e]] Hi; cbn in *; try discriminate.
      intros y Ey. split; [exact H|eauto].
    - intros s k Hsl (H & Hc). unfold map_final_slurp. eapply safely_bind; [apply (calm_slurp Hsl Hc)|].
      intros [i' r] Hi. cbn in *. auto.
    - intros [i [g|]] k (H & Hc); [|now elim H]. unfold map_final_expose. cbn [wf_inner wf_fun] in *.
      eapply safely_bind; [apply (calm_expose Hc)|]. intros [i' [[x|f]|e]] Hi; cbn in *; try discriminate.
      intros y Ey. injection Ey as <-. split; [exact H|eauto].
    - intros s k n (H & Hc) Hn. unfold map_final_consider. eapply safely_bind; [apply (calm_consider Hc Hn)|].
      intros [i' r] Hi. cbn in *. auto.
  Qed.

  Lemma map_final_consumer_calm : forall B (C : bulk_consumer S T F E) s (g : B -> F) k w, calm_c C s k w ->
    calm_c (map_final_consumer C) (with_fun_new s g) k w.
  Proof.
    intros B C s g k w H.
    apply calm_consumer_of with (Inv := fun s k w => wf_fun s <> None /\ calm_c C (wf_inner s) k w); [..|cbn; split; [discriminate|exact H]]; clear s g k w H.
    - intros s k w (H & Hc). split; [exact H|]. eapply calm_c_less; [exact Hc|lia|lia].
    - intros x s k w (H & Hc). unfold map_final_consume. eapply safely_bind; [apply (calm_consume x Hc)|].
      intros [i' r] Hi. cbn in *. auto.
    - intros f [i [g|]] k w (H & Hc); [|now elim H]. unfold map_final_close. cbn in Hc. cbn [wf_fun wf_inner expect bind].
      eapply safely_bind; [apply (calm_close (g f) Hc)|]. intros [i' r] _. exact Logic.I.
    - intros s k w (H & Hc). unfold map_final_flush. eapply safely_bind; [apply (calm_flush Hc)|].
      intros [i' r] Hi. cbn in *. auto.
    - intros s k w (H & Hc). unfold map_final_expose_slots. eapply safely_bind; [apply (calm_expose_slots Hc)|].
      intros [i' r] Hi. cbn in *. intros n Hn. auto.
    - intros ys s k w (H & Hc) Hy. cbn -[Nat.max]. split; [exact H|]. now apply calm_write.
    - intros n s k w (H & Hc) Hn. unfold map_final_consume_slots. eapply safely_bind; [apply (calm_consume_slots Hc Hn)|].
      intros [i' r] Hi. cbn in *. auto.
  Qed.

  Lemma invariant_producer_calm : forall sl (P : bulk_producer S T F E) s k, calm_p sl P s k -> calm_p sl (invariant_producer P) (invariant_new s) 0.
  Proof.
    intros sl P s k H.
    apply calm_producer_of with (Inv := fun s k => inv_active s = true /\ k <= inv_exposed s /\ exists k', k <= k' /\ calm_p sl P (inv_inner s) k');
      [..|cbn; splits; [reflexivity|lia|exists k; split; [lia|exact H]]]; clear s k H.
    - intros s k (Ha & H & k' & Hk & Hc). splits; [exact Ha|lia|]. exists k'. split; [lia|exact Hc].
    - intros [i [|] n] k (Ha & H & k' & Hk & Hc); [|discriminate]. unfold invariant_produce, inv_check. cbn [inv_active inv_inner inv_exposed] in *.
      eapply safely_bind; [apply (calm_produce Hc)|]. intros [i' [[x|f]|e]] Hi; cbn in *; try discriminate.
      intros y Ey. splits; [reflexivity|lia|]. exists (k' - 1). split; [lia|eauto].
    - intros [i [|] n] k Hsl (Ha & H & k' & Hk & Hc); [|discriminate]. unfold invariant_slurp, inv_check. cbn [inv_active inv_inner inv_exposed] in *.
      eapply safely_bind; [apply (calm_slurp Hsl Hc)|]. intros [i' [[]|e]] Hi; cbn in *; try discriminate.
      intros _. splits; [reflexivity|lia|]. exists k'. auto.
    - intros [i [|] n] k (Ha & H & k' & Hk & Hc); [|discriminate]. unfold invariant_expose, inv_check. cbn [inv_active inv_inner inv_exposed] in *.
      eapply safely_bind; [apply (calm_expose Hc)|]. intros [i' [[x|f]|e]] Hi; cbn in *; try discriminate.
      intros y Ey. injection Ey as <-. splits; [reflexivity|lia|]. exists (length x). auto.
    - intros [i [|] m] k n (Ha & H & k' & Hk & Hc) Hn; [|discriminate]. unfold invariant_consider, inv_check. cbn [inv_active inv_inner inv_exposed] in *.
      destruct (m <? n) eqn:Em; [apply Nat.ltb_lt in Em; lia|]. rewrite csub_ok by lia. cbn [bind].
      eapply safely_bind; [apply (@calm_consider _ _ _ _ _ _ _ _ n Hc); lia|]. intros [i' r] Hi. cbn in *.
      intros Hr. splits; [reflexivity|lia|]. exists (k' - n). split; [lia|auto].
  Qed.

  Lemma invariant_consumer_calm : forall (C : bulk_consumer S T F E) s k w, calm_c C s k w -> calm_c (invariant_consumer C) (invariant_new s) 0 0.
  Proof.
    intros C s k w H.
    apply calm_consumer_of with (Inv := fun s k w => inv_active s = true /\ k <= inv_exposed s /\ w <= k /\
      exists k' w', k <= k' /\ w <= w' /\ calm_c C (inv_inner s) k' w');
      [..|cbn; splits; [reflexivity|lia|lia|exists k, w; splits; [lia|lia|exact H]]]; clear s k w H.
    - intros s k w (Ha & H & Hw & k' & w' & H1 & H2 & Hc). splits; [exact Ha|lia|lia|]. exists k', w'. splits; [lia|lia|exact Hc].
    - intros x [i [|] n] k w (Ha & H & Hw & k' & w' & H1 & H2 & Hc); [|discriminate]. unfold invariant_consume, inv_check. cbn [inv_active inv_inner inv_exposed] in *.
      eapply safely_bind; [apply (calm_consume x Hc)|]. intros [i' [[]|e]] Hi; cbn in *; try discriminate.
      intros _. splits; [reflexivity|lia|lia|]. exists 0, 0. auto.
    - intros f [i [|] n] k w (Ha & H & Hw & k' & w' & H1 & H2 & Hc); [|discriminate]. unfold invariant_close, inv_check. cbn [inv_active inv_inner inv_exposed] in *.
      eapply safely_bind; [apply (calm_close f Hc)|]. intros [i' r] _. exact Logic.I.
    - intros [i [|] n] k w (Ha & H & Hw & k' & w' & H1 & H2 & Hc); [|discriminate]. unfold invariant_flush, inv_check. cbn [inv_active inv_inner inv_exposed] in *.
      eapply safely_bind; [apply (calm_flush Hc)|]. intros [i' [[]|e]] Hi; cbn in *; try discriminate.
      intros _. splits; [reflexivity|lia|lia|]. exists k', w'. auto.
    - intros [i [|] n] k w (Ha & H & Hw & k' & w' & H1 & H2 & Hc); [|discriminate]. unfold invariant_expose_slots, inv_check. cbn [inv_active inv_inner inv_exposed] in *.
      eapply safely_bind; [apply (calm_expose_slots Hc)|]. intros [i' [m|e]] Hi; cbn in *; try discriminate.
      intros y Ey. injection Ey as <-. splits; [reflexivity|lia|lia|]. exists m, 0. auto.
    - intros ys s k w (Ha & H & Hw & k' & w' & H1 & H2 & Hc) Hy. cbn -[Nat.max]. splits; [exact Ha|lia|lia|].
      exists k', (Nat.max w' (length ys)). splits; [lia|lia|]. apply calm_write; [exact Hc|lia].
    - intros n [i [|] m] k w (Ha & H & Hw & k' & w' & H1 & H2 & Hc) Hn; [|discriminate]. unfold invariant_consume_slots, inv_check. cbn [inv_active inv_inner inv_exposed] in *.
      destruct (m <? n) eqn:Em; [apply Nat.ltb_lt in Em; lia|]. rewrite csub_ok by lia. cbn [bind].
      eapply safely_bind; [apply (@calm_consume_slots _ _ _ _ _ _ _ _ n Hc); lia|]. intros [i' r] Hi. cbn in *.
      intros Hr. splits; [reflexivity|lia|lia|]. exists (k' - n), (w' - n). splits; [lia|lia|auto].
  Qed.

  (** The checker of release builds is also one of the defaults over someone else's methods. *)
  Lemma noop_producer_calm : forall sl (P : bulk_producer S T F E) s k, calm_p sl P s k -> calm_p sl (invariant_noop_producer P) s k.
  Proof.
    intros sl P s k H. apply calm_producer_of with (Inv := fun s k => calm_p sl P s k); [..|exact H]; clear s k H.
    - intros s k H. eapply calm_p_less; [exact H|lia].
    - intros s k H. apply (calm_produce H).
    - intros s k Hsl H. apply (calm_slurp Hsl H).
    - intros s k H. apply (calm_expose H).
    - intros s k n H Hn. apply (calm_consider H Hn).
  Qed.
  Lemma noop_consumer_calm : forall (C : bulk_consumer S T F E) s k w, calm_c C s k w -> calm_c (invariant_noop_consumer C) s k w.
  Proof.
    intros C s k w H. apply calm_consumer_of with (Inv := fun s k w => calm_c C s k w); [..|exact H]; clear s k w H.
    - intros s k w H. eapply calm_c_less; [exact H|lia|lia].
    - intros x s k w H. apply (calm_consume x H).
    - intros f s k w H. apply (calm_close f H).
    - intros s k w H. apply (calm_flush H).
    - intros s k w H. apply (calm_expose_slots H).
    - intros ys s k w H Hy. now apply calm_write.
    - intros n s k w H Hn. apply (calm_consume_slots H Hn).
  Qed.
End Adaptors.

(** ** Scramblers *)
Section ProducerScrambler.
  Context {S T F E : Type} (dbg : bool) (P : bulk_producer S T F E) (sl : bool) (cap : nat) (ops : list pscr_op).
  Hypothesis slurps_ok : sl = true \/ ~ In ScSlurp ops.

  (** The inner producer is used only until it has reported its last value. *)
  Definition pscr_calm (s : pscr S T F E) (buf : list T) : Prop :=
    pscr_wf cap ops s buf /\ (ps_last s = None -> exists k, calm_p sl P (ps_inner s) k).

  Lemma pscr_perform_calm : forall s buf, pscr_calm s buf -> ps_last s = None -> length buf < cap ->
    safely (fun x => exists more, pscr_wf cap ops (fst x) (buf ++ more) /\ ps_last (fst x) = None /\
              (snd x = Ok None -> exists k, calm_p sl P (ps_inner (fst x)) k)) (pscr_perform_operation dbg P s).
  Proof.
    intros s buf (W & HC) Hlast Hlt. destruct (HC Hlast) as [k Hk]. clear HC. pose proof W as (HQ & Ho & Hi).
    unfold pscr_perform_operation. rewrite debug_assert_true.
    2: { rewrite (pscr_wf_len W). destruct (pscr_wf_cap W) as [-> _]. now apply Nat.ltb_lt. }
    rewrite Ho. unfold index. destruct (nth_error ops (ps_index s)) as [o|] eqn:En.
    2: { apply nth_error_None in En. lia. }
    cbn [bind]. assert (Hin : In o ops) by (eapply nth_error_In; eauto).
    assert (Hmod : (ps_index s + 1) mod length ops < length ops) by (apply Nat.mod_upper_bound; lia).
    destruct o as [|n|].
    - eapply safely_bind; [exact (calm_produce Hk)|]. intros [i r] Hr. cbn [fst snd] in Hr. destruct r as [[x|f]|e].
      + destruct (lq_enqueue (fixed_lawful cap) x HQ Hlt) as (b & E2 & HQ').
        cbn [ps_with_inner ps_buffer]. rewrite E2. cbn [bind]. rewrite debug_assert_true by reflexivity.
        rewrite (@pscr_advance_ok _ _ _ _ cap ops) with (buf := buf ++ [x]).
        2: { unfold pscr_wf, ps_with_buffer, ps_with_inner; cbn; splits; auto. }
        cbn [bind]. exists [x]. unfold pscr_wf. cbn. splits; auto. intros _. exists (k - 1). eauto.
      + exists []. rewrite app_nil_r. cbn. splits; auto. discriminate.
      + exists []. rewrite app_nil_r. cbn. splits; auto. discriminate.
    - eapply safely_bind; [exact (calm_expose Hk)|]. intros [i r] Hr. cbn [fst snd] in Hr. destruct r as [[ys|f]|e].
      + cbn [ps_with_inner ps_buffer ps_inner]. rewrite slice_to_ok by lia. cbn [bind].
        destruct (lawful_bulk_enqueue (fixed_lawful cap) (firstn (Nat.min (length ys) n) ys) HQ) as (b & m & E2 & Hm1 & Hm2 & Hm3 & HQ').
        rewrite E2. cbn [bind]. rewrite firstn_length in Hm1.
        unfold ps_with_buffer, ps_with_inner. cbn [ps_inner ps_buffer ps_last ps_operations ps_index].
        eapply safely_bind; [refine (@calm_consider _ _ _ _ _ _ _ _ m (Hr _ eq_refl) _); lia|].
        intros [i2 r2] H2. cbn [fst snd] in H2. destruct r2 as [[]|e].
        * rewrite (@pscr_advance_ok _ _ _ _ cap ops) with (buf := buf ++ firstn m (firstn (Nat.min (length ys) n) ys)).
          2: { unfold pscr_wf; cbn [ps_buffer ps_operations ps_index ps_inner]; splits; auto. }
          cbn [bind]. eexists. unfold pscr_wf. cbn [fst snd ps_buffer ps_operations ps_index ps_inner ps_last]. splits; [exact HQ'|reflexivity|exact Hmod|exact Hlast|].
          intros _. exists (length ys - m). auto.
        * eexists. unfold pscr_wf. cbn [fst snd ps_buffer ps_operations ps_index ps_inner ps_last]. splits; [exact HQ'|exact Ho|exact Hi|exact Hlast|discriminate].
      + exists []. rewrite app_nil_r. cbn. splits; auto. discriminate.
      + exists []. rewrite app_nil_r. cbn. splits; auto. discriminate.
    - destruct slurps_ok as [Hsl|Hno]; [|contradiction].
      eapply safely_bind; [exact (calm_slurp Hsl Hk)|]. intros [i r] Hr. cbn [fst snd] in Hr. destruct r as [[]|e].
      + rewrite (@pscr_advance_ok _ _ _ _ cap ops) with (buf := buf).
        2: { unfold pscr_wf, ps_with_inner; cbn; splits; auto. }
        cbn [bind]. exists []. rewrite app_nil_r. unfold pscr_wf. cbn. splits; auto. intros _. exists k. auto.
      + exists []. rewrite app_nil_r. cbn. splits; auto. discriminate.
  Qed.

  Lemma pscr_fill_loop_calm : forall fuel s buf, pscr_calm s buf ->
    safely (fun s' => exists more, pscr_calm s' (buf ++ more) /\ (ps_last s' = None -> length (buf ++ more) = cap)) (pscr_fill_loop dbg fuel P s).
  Proof.
    induction fuel as [|fuel IH]; intros s buf (W & HC); cbn [pscr_fill_loop]; [exact Logic.I|].
    destruct (ps_last s) as [l|] eqn:El.
    - exists []. rewrite app_nil_r. split; [split; [exact W|rewrite El; discriminate]|rewrite El; discriminate].
    - destruct (pscr_wf_cap W) as [Ec Hc]. rewrite (pscr_wf_len W), Ec. destruct (length buf <? cap) eqn:Elt.
      + apply Nat.ltb_lt in Elt. eapply safely_bind; [apply (@pscr_perform_calm s buf); [split; [exact W|rewrite El; exact HC]|exact El|exact Elt]|].
        intros [s' r] (more & W' & El' & HC'). cbn [fst snd] in *.
        assert (Hgo : forall s2, pscr_calm s2 (buf ++ more) ->
          safely (fun s' => exists more, pscr_calm s' (buf ++ more) /\ (ps_last s' = None -> length (buf ++ more) = cap)) (pscr_fill_loop dbg fuel P s2)).
        { intros s2 H2. eapply safely_weaken; [apply (IH _ _ H2)|]. intros s3 (more' & H3). exists (more ++ more'). now rewrite app_assoc. }
        destruct r as [[f|]|e]; apply Hgo; split; auto; cbn; discriminate.
      + apply Nat.ltb_ge in Elt. exists []. rewrite app_nil_r. split; [split; [exact W|rewrite El; exact HC]|]. intros _. lia.
  Qed.

  Lemma pscr_fill_queue_calm : forall fuel s buf, pscr_calm s buf ->
    safely (fun x => snd x = None -> exists more, pscr_calm (fst x) (buf ++ more) /\ buf ++ more <> []) (pscr_fill_queue dbg fuel P s).
  Proof.
    intros fuel s buf H. unfold pscr_fill_queue. eapply safely_bind; [apply (pscr_fill_loop_calm fuel H)|].
    intros s' (more & (W & HC) & Hfull). rewrite (pscr_wf_len W). destruct (buf ++ more) as [|y bs] eqn:Eb.
    - cbn. intros Hn. exfalso. specialize (Hfull Hn). destruct W as ((Hp & _) & _). cbn in Hfull. lia.
    - cbn. intros _. exists more. rewrite Eb. split; [split; auto|discriminate].
  Qed.

  Lemma pscr_calm_intro : forall fuel s buf, pscr_calm s buf -> calm_p false (pscr_producer dbg fuel P) s (length buf).
  Proof.
    intros fuel s buf H.
    apply calm_producer_of with (Inv := fun s k => exists buf, pscr_calm s buf /\ k <= length buf); [..|eauto]; clear s buf H.
    - intros s k (buf & H & Hk). exists buf. split; [exact H|lia].
    - intros s k (buf & H & Hk). unfold pscr_produce. eapply safely_bind; [apply (pscr_fill_queue_calm fuel H)|].
      intros [s' l] Hf. cbn [fst snd] in Hf. destruct l as [[f|e]|]; [cbn; discriminate..|].
      destruct (Hf eq_refl) as (more & (W & HC) & Hne). destruct (buf ++ more) as [|y bs] eqn:Eb; [congruence|].
      pose proof W as (HQ & Ho & Hi). destruct (lq_dequeue (fixed_lawful cap) HQ) as (b & E2 & HQ'). rewrite E2. cbn.
      intros i _. exists bs. split; [split; [unfold pscr_wf; cbn; auto|exact HC]|].
      apply (f_equal (@length T)) in Eb. rewrite app_length in Eb. cbn in Eb. lia.
    - discriminate.
    - intros s k (buf & H & Hk). unfold pscr_expose. eapply safely_bind; [apply (pscr_fill_queue_calm fuel H)|].
      intros [s' l] Hf. cbn [fst snd] in Hf. destruct l as [[f|e]|]; [cbn; discriminate..|].
      destruct (Hf eq_refl) as (more & (W & HC) & Hne).
      pose proof W as (HQ & Ho & Hi). destruct (lq_expose_items (fixed_lawful cap) HQ Hne) as (b & ys & rest & E2 & Hy & Hb & HQ'). rewrite E2. cbn.
      intros i Ei. injection Ei as <-. exists (buf ++ more). split; [split; [unfold pscr_wf; cbn; auto|exact HC]|].
      rewrite Hb, app_length. lia.
    - intros s k n (buf & (W & HC) & Hk) Hn. unfold pscr_consider. pose proof W as (HQ & Ho & Hi).
      destruct (lq_consider_dequeued (fixed_lawful cap) n HQ) as (b & E1 & HQ'); [lia|]. rewrite E1. cbn.
      intros _. exists (skipn n buf). split; [split; [unfold pscr_wf; cbn; auto|exact HC]|]. rewrite skipn_length. lia.
  Qed.
End ProducerScrambler.

Lemma pscr_producer_calm : forall S T F E dbg fuel sl (P : bulk_producer S T F E) x0 s pat cap k,
  0 < cap -> sl = true \/ ~ In ScSlurp pat -> calm_p sl P s k ->
  calm_p false (pscr_producer dbg fuel P) (pscr_new_with_capacity x0 s pat cap) 0.
Proof.
  intros S T F E dbg fuel sl P x0 s pat cap k Hc Hs H.
  apply pscr_calm_intro with (cap := cap) (ops := pscr_operations pat) (sl := sl) (buf := []).
  - destruct Hs as [Hs|Hs]; [now left|right]. intros Hin. apply Hs. exact (pscr_operations_slurp _ Hin).
  - split; [|intros _; exists k; exact H]. unfold pscr_wf, pscr_new_with_capacity, fixed_new. cbn. splits; [now apply fixed_new_R|reflexivity|].
    unfold pscr_operations. destruct (pscr_make_progress pat) eqn:Ep; [destruct pat; [discriminate|cbn; lia]|rewrite app_length; cbn; lia].
Qed.

Section ConsumerScrambler.
  Context {S T F E : Type} (x0 : T) (C : bulk_consumer S T F E) (cap : nat) (ops : list cscr_op).

  Definition cscr_calm (s : cscr S T) (pend : list T) (k : nat) (w : list T) : Prop :=
    cscr_wf cap ops s pend k w /\ exists k' w', calm_c C (cs_inner s) k' w'.

  Lemma cscr_perform_calm : forall dbg s pend k w, cscr_calm s pend k w -> pend <> [] ->
    safely (fun x => snd x = Ok tt -> exists m, cscr_calm (fst x) (skipn m pend) k w) (cscr_perform_operation dbg x0 C s).
  Proof.
    intros dbg s pend k w (W & k' & w' & Hc) Hne. pose proof W as (HQ & Ho & Hi).
    assert (Hlen : 0 < length pend) by (destruct pend; [congruence|cbn; lia]).
    unfold cscr_perform_operation. rewrite debug_assert_true.
    2: { rewrite (cscr_wf_len W). now apply Nat.ltb_lt. }
    rewrite Ho. unfold index. destruct (nth_error ops (cs_index s)) as [o|] eqn:En.
    2: { apply nth_error_None in En. lia. }
    cbn [bind].
    assert (Hmod : (cs_index s + 1) mod length ops < length ops) by (apply Nat.mod_upper_bound; lia).
    eapply safely_bind with (Q := fun x => snd x = Ok tt -> exists m, cscr_calm (fst x) (skipn m pend) k w).
    - destruct o as [|n|].
      + destruct pend as [|y pend]; [congruence|]. destruct (lq_dequeue (fixed_lawful cap) HQ) as (b & E2 & HQ'). rewrite E2. cbn [bind expect].
        cbn [cs_with_buffer cs_inner]. eapply safely_bind; [exact (calm_consume y Hc)|]. intros [i r] Hr. cbn in *. intros ->.
        exists 1. split; [unfold cscr_wf; cbn; auto|exists 0, 0; auto].
      + eapply safely_bind; [exact (calm_expose_slots Hc)|]. intros [i r] Hr. cbn [fst snd] in Hr. destruct r as [m|e]; [|cbn; discriminate].
        cbn [cs_with_inner cs_buffer].
        destruct (lawful_bulk_dequeue (fixed_lawful cap) (repeat x0 (Nat.min m n)) HQ) as (b & j & E2 & Hj1 & Hj2 & Hj3 & HQ').
        rewrite E2. cbn [bind cs_with_buffer cs_inner]. rewrite repeat_length in Hj1.
        set (zs := firstn j (firstn j pend ++ skipn j (repeat x0 (Nat.min m n)))).
        assert (Hz : length zs = j).
        { subst zs. rewrite firstn_length, app_length, firstn_length, skipn_length, repeat_length. lia. }
        assert (Hcw : calm_c C (c_write C zs i) m (Nat.max 0 (length zs))) by (apply calm_write; [exact (Hr _ eq_refl)|lia]).
        eapply safely_bind; [refine (@calm_consume_slots _ _ _ _ _ _ _ _ j Hcw _); lia|].
        intros [i2 r2] H2. cbn in *. intros ->. exists j. split; [unfold cscr_wf; cbn; auto|eauto].
      + eapply safely_bind; [exact (calm_flush Hc)|]. intros [i r] Hr. cbn in *. intros ->. exists 0. split; [unfold cscr_wf; cbn; auto|eauto].
    - intros [s' r] H. cbn [fst snd] in H. destruct r as [[]|e]; [|cbn; discriminate]. destruct (H eq_refl) as (m & W' & Hc').
      rewrite (cscr_advance_ok W'). cbn. intros _. exists m. split; [|exact Hc']. destruct W' as (HQ' & _ & Hi').
      unfold cscr_wf. cbn. splits; auto. apply Nat.mod_upper_bound. lia.
  Qed.

  Lemma cscr_drain_calm : forall dbg fuel s pend k w, cscr_calm s pend k w ->
    safely (fun x => snd x = Ok tt -> cscr_calm (fst x) [] k w) (cscr_drain dbg x0 fuel C s).
  Proof.
    intros dbg. induction fuel as [|fuel IH]; intros s pend k w H; cbn [cscr_drain]; [exact Logic.I|].
    pose proof H as (W & _). rewrite (cscr_wf_len W). destruct pend as [|y pend].
    - cbn. intros _. exact H.
    - cbn [length Nat.ltb Nat.leb]. eapply safely_bind; [apply (@cscr_perform_calm dbg s _ k w H); discriminate|].
      intros [s' r] Hr. cbn [fst snd] in Hr. destruct r as [[]|e]; [|cbn; discriminate]. destruct (Hr eq_refl) as (m & H'). apply (IH _ _ _ _ H').
  Qed.

  Lemma cscr_calm_intro : forall fuel s pend k w, cscr_calm s pend k w -> calm_c (cscr_consumer false x0 fuel C) s k (length w).
  Proof.
    intros fuel s pend k w H.
    apply calm_consumer_of with (Inv := fun s k n => exists pend w, cscr_calm s pend k w /\ n <= length w); [..|eauto]; clear s pend k w H.
    - intros s k n (pend & w & (W & Hc) & Hn). exists pend, []. split; [|cbn; lia]. split; [|exact Hc].
      destruct W as (HQ & Ho & Hi). split; [exact (lq_forget (fixed_lawful cap) HQ)|auto].
    - intros x s k n (pend & w & H & Hn). pose proof H as (W & Hc). pose proof W as (HQ & Ho & Hi). unfold cscr_consume.
      destruct (cscr_wf_cap W) as [_ Hle]. destruct (Nat.eq_dec (length pend) cap) as [Ef|Ef].
      + rewrite (lq_enqueue_full (fixed_lawful cap) x HQ Ef). cbn [bind].
        assert (H' : cscr_calm (cs_with_buffer (cs_buffer s) s) pend k w) by (split; [unfold cscr_wf; cbn; auto|exact Hc]).
        eapply safely_bind; [apply (cscr_drain_calm false fuel H')|]. intros [s' r] Hr. cbn [fst snd] in Hr. destruct r as [[]|e]; [|cbn; discriminate].
        destruct (Hr eq_refl) as ((HQ' & Ho' & Hi') & Hc'). pose proof HQ' as (Hp & _).
        destruct (lq_enqueue (fixed_lawful cap) x HQ') as (b & E2 & HQ2); [cbn; lia|]. rewrite E2. cbn [bind debug_assert andb].
        intros _. exists ([] ++ [x]), []. split; [|cbn; lia]. split; [unfold cscr_wf; cbn; auto|exact Hc'].
      + destruct (lq_enqueue (fixed_lawful cap) x HQ) as (b & E2 & HQ2); [lia|]. rewrite E2. cbn [bind].
        intros _. exists (pend ++ [x]), []. split; [|cbn; lia]. split; [unfold cscr_wf; cbn; auto|exact Hc].
    - intros f s k n (pend & w & H & Hn). unfold cscr_close. eapply safely_bind; [apply (cscr_drain_calm false fuel H)|].
      intros [s' r] Hr. cbn [fst snd] in Hr. destruct r as [[]|e]; [|exact Logic.I]. destruct (Hr eq_refl) as (_ & k' & w' & Hc).
      eapply safely_bind; [exact (calm_close f Hc)|]. intros [i r] _. exact Logic.I.
    - intros s k n (pend & w & H & Hn). unfold cscr_flush. eapply safely_bind; [apply (cscr_drain_calm false fuel H)|].
      intros [s' r] Hr. cbn [fst snd] in Hr. destruct r as [[]|e]; [|cbn; discriminate]. destruct (Hr eq_refl) as (W' & k' & w' & Hc).
      eapply safely_bind; [exact (calm_flush Hc)|]. intros [i r] Hr2. cbn in *. intros ->. exists [], w. split; [|exact Hn].
      destruct W' as (HQ' & Ho' & Hi'). split; [unfold cscr_wf; cbn; auto|eauto].
    - intros s k n (pend & w & H & Hn). pose proof H as (W & Hc). pose proof W as (HQ & Ho & Hi). unfold cscr_expose.
      destruct (cscr_wf_cap W) as [Ec Hle]. rewrite (cscr_wf_len W), Ec.
      destruct (length pend <? cap) eqn:El.
      + apply Nat.ltb_lt in El. destruct (lq_expose_slots (fixed_lawful cap) HQ El) as (b & m & E2 & _ & _ & HQ2). rewrite E2. cbn.
        intros j Ej. injection Ej as <-. exists pend, []. split; [|cbn; lia]. split; [unfold cscr_wf; cbn; auto|exact Hc].
      + eapply safely_bind; [apply (cscr_drain_calm false fuel H)|]. intros [s' r] Hr. cbn [fst snd] in Hr. destruct r as [[]|e]; [|cbn; discriminate].
        destruct (Hr eq_refl) as ((HQ' & Ho' & Hi') & Hc'). pose proof HQ' as (Hp & _).
        destruct (lq_expose_slots (fixed_lawful cap) HQ') as (b & m & E2 & _ & _ & HQ2); [cbn; lia|]. rewrite E2. cbn.
        intros j Ej. injection Ej as <-. exists [], []. split; [|cbn; lia]. split; [unfold cscr_wf; cbn; auto|exact Hc'].
    - intros ys s k n (pend & w & ((HQ & Ho & Hi) & Hc) & Hn) Hy. exists pend, (overlay ys w). split.
      + split; [|exact Hc]. unfold cscr_wf. cbn [cscr_write cs_with_buffer cs_buffer cs_operations cs_index]. splits; auto.
        exact (lq_write (fixed_lawful cap) ys HQ Hy).
      + rewrite length_overlay_max. lia.
    - intros n s k m (pend & w & ((HQ & Ho & Hi) & Hc) & Hm) Hn. unfold cscr_consume_slots.
      destruct (lq_consider_enqueued (fixed_lawful cap) n HQ) as (b & E1 & HQ'); [lia|]. rewrite E1. cbn.
      intros _. exists (pend ++ firstn n w), (skipn n w). split; [split; [unfold cscr_wf; cbn; auto|exact Hc]|]. rewrite skipn_length. lia.
  Qed.
End ConsumerScrambler.

Lemma cscr_consumer_calm : forall S T F E x0 fuel (C : bulk_consumer S T F E) s pat cap k w, 0 < cap -> calm_c C s k w ->
  calm_c (cscr_consumer false x0 fuel C) (cscr_new_with_capacity x0 s pat cap) 0 0.
Proof.
  intros S T F E x0 fuel C s pat cap k w Hc H.
  apply cscr_calm_intro with (cap := cap) (ops := if cscr_make_progress pat then pat else pat ++ [ScConsume]) (pend := []) (w := []).
  split; [|exists k, w; exact H]. unfold cscr_wf, cscr_new_with_capacity, fixed_new. cbn. splits; [now apply fixed_new_R|reflexivity|].
  destruct (cscr_make_progress pat) eqn:Ep; [destruct pat; [discriminate|cbn; lia]|rewrite app_length; cbn; lia].
Qed.

(** ** Objects without bulk methods *)
Section Buffered.
  Context {S T F E : Type}.

  Section P.
    Variables (sl : bool) (P : buffered_producer S T F E).
    Lemma calm_bp_produce : forall s, calm_buffered_producer sl P s ->
      safely (fun x => forall i, snd x = Ok (inl i) -> calm_buffered_producer sl P (fst x)) (p_produce P s).
    Proof.
      intros s H. pose proof (@calm_step _ _ _ _ _ _ _ _ _ BProduce H eq_refl) as Hs. cbn in Hs.
      destruct (p_produce P s) as [[s' r]| |]; cbn in *; auto. intros i ->. exact Hs.
    Qed.
    Lemma calm_bp_slurp : forall s, sl = true -> calm_buffered_producer sl P s ->
      safely (fun x => snd x = Ok tt -> calm_buffered_producer sl P (fst x)) (p_slurp P s).
    Proof.
      intros s Hsl H. pose proof (@calm_step _ _ _ _ _ _ _ _ _ BSlurp H Hsl) as Hs. cbn in Hs.
      destruct (p_slurp P s) as [[s' r]| |]; cbn in *; auto. intros ->. exact Hs.
    Qed.
    Lemma calm_bp_intro : forall (Inv : S -> Prop),
      (forall s, Inv s -> safely (fun x => forall i, snd x = Ok (inl i) -> Inv (fst x)) (p_produce P s)) ->
      (forall s, sl = true -> Inv s -> safely (fun x => snd x = Ok tt -> Inv (fst x)) (p_slurp P s)) ->
      forall s, Inv s -> calm_buffered_producer sl P s.
    Proof.
      intros Inv H1 H2 s HI. apply calm_intro with (Inv := fun s (over : bool) => over = true \/ Inv s); [|now right].
      clear s HI. intros s [|] o HI Ho; [discriminate|]. destruct HI as [HI|HI]; [discriminate|]. destruct o; cbn [bp_do].
      - eapply safely_bind; [apply (H1 _ HI)|]. intros [s' [[i|f]|e]] H; cbn in *; auto. right. eauto.
      - eapply safely_bind; [apply (H2 _ Ho HI)|]. intros [s' [[]|e]] H; cbn in *; auto.
    Qed.
  End P.

  Section C.
    Variable C : buffered_consumer S T F E.
    Lemma calm_bc_consume : forall s x, calm_buffered_consumer C s ->
      safely (fun x => snd x = Ok tt -> calm_buffered_consumer C (fst x)) (c_consume C x s).
    Proof.
      intros s x H. pose proof (@calm_step _ _ _ _ _ _ _ _ _ (BConsume x) H eq_refl) as Hs. cbn in Hs.
      destruct (c_consume C x s) as [[s' r]| |]; cbn in *; auto. intros ->. exact Hs.
    Qed.
    Lemma calm_bc_close : forall s f, calm_buffered_consumer C s -> safely (fun _ => True) (c_close C f s).
    Proof.
      intros s f H. pose proof (@calm_step _ _ _ _ _ _ _ _ _ (BClose f) H eq_refl) as Hs. cbn in Hs.
      destruct (c_close C f s) as [[s' r]| |]; cbn in *; auto.
    Qed.
    Lemma calm_bc_flush : forall s, calm_buffered_consumer C s ->
      safely (fun x => snd x = Ok tt -> calm_buffered_consumer C (fst x)) (c_flush C s).
    Proof.
      intros s H. pose proof (@calm_step _ _ _ _ _ _ _ _ _ BFlush H eq_refl) as Hs. cbn in Hs.
      destruct (c_flush C s) as [[s' r]| |]; cbn in *; auto. intros ->. exact Hs.
    Qed.
    Lemma calm_bc_intro : forall (Inv : S -> Prop),
      (forall x s, Inv s -> safely (fun x => snd x = Ok tt -> Inv (fst x)) (c_consume C x s)) ->
      (forall f s, Inv s -> safely (fun _ => True) (c_close C f s)) ->
      (forall s, Inv s -> safely (fun x => snd x = Ok tt -> Inv (fst x)) (c_flush C s)) ->
      forall s, Inv s -> calm_buffered_consumer C s.
    Proof.
      intros Inv H1 H2 H3 s HI. apply calm_intro with (Inv := fun s (over : bool) => over = true \/ Inv s); [|now right].
      clear s HI. intros s [|] o HI Ho; [discriminate|]. destruct HI as [HI|HI]; [discriminate|]. destruct o; cbn [bc_do].
      - eapply safely_weaken; [apply (H1 x _ HI)|]. intros [s' [[]|e]] H; cbn in *; auto.
      - eapply safely_weaken; [apply (H2 f _ HI)|]. intros [s' r] H; cbn in *; auto.
      - eapply safely_weaken; [apply (H3 _ HI)|]. intros [s' [[]|e]] H; cbn in *; auto.
    Qed.
  End C.

  Lemma calm_p_buffered : forall sl (P : bulk_producer S T F E) s k, calm_p sl P s k -> calm_buffered_producer sl P s.
  Proof.
    intros sl P s k H. apply calm_bp_intro with (Inv := fun s => exists k, calm_p sl P s k); [..|eauto]; clear s k H.
    - intros s (k & H). eapply safely_weaken; [apply (calm_produce H)|]. cbn. eauto.
    - intros s Hsl (k & H). eapply safely_weaken; [apply (calm_slurp Hsl H)|]. cbn. eauto.
  Qed.
  Lemma calm_c_buffered : forall (C : bulk_consumer S T F E) s k w, calm_c C s k w -> calm_buffered_consumer C s.
  Proof.
    intros C s k w H. apply calm_bc_intro with (Inv := fun s => exists k w, calm_c C s k w); [..|eauto]; clear s k w H.
    - intros x s (k & w & H). eapply safely_weaken; [apply (calm_consume x H)|]. cbn. eauto.
    - intros f s (k & w & H). apply (calm_close f H).
    - intros s (k & w & H). eapply safely_weaken; [apply (calm_flush H)|]. cbn. eauto.
  Qed.

End Buffered.

Section MapItem.
  Context {S T F E : Type}.

  Lemma map_item_producer_calm : forall U W sl (P : buffered_producer S T F E) (f : W -> T -> W * U) s w,
    calm_buffered_producer sl P s -> calm_buffered_producer sl (map_item_producer P f) (mk_map_item s w).
  Proof.
    intros U W sl P f s w H. apply calm_bp_intro with (Inv := fun s => calm_buffered_producer sl P (mi_inner s)); [..|exact H]; clear s w H.
    - intros s H. cbn. unfold map_item_produce. eapply safely_bind; [apply (calm_bp_produce H)|].
      intros [i [[x|fin]|e]] Hi; cbn in *; try discriminate. destruct (f (mi_closure s) x). cbn. eauto.
    - intros s Hsl H. cbn. unfold map_item_slurp. eapply safely_bind; [apply (calm_bp_slurp Hsl H)|].
      intros [i r] Hi; cbn in *. auto.
  Qed.
  Lemma map_item_consumer_calm : forall U W (C : buffered_consumer S T F E) (f : W -> U -> W * T) s w,
    calm_buffered_consumer C s -> calm_buffered_consumer (map_item_consumer C f) (mk_map_item s w).
  Proof.
    intros U W C f s w H. apply calm_bc_intro with (Inv := fun s => calm_buffered_consumer C (mi_inner s)); [..|exact H]; clear s w H.
    - intros x s H. cbn. unfold map_item_consume. destruct (f (mi_closure s) x) as [w y].
      eapply safely_bind; [apply (calm_bc_consume y H)|]. intros [i r] Hi; cbn in *. auto.
    - intros fin s H. cbn. unfold map_item_close. eapply safely_bind; [apply (calm_bc_close fin H)|]. intros [i r] _. exact Logic.I.
    - intros s H. cbn. unfold map_item_flush. eapply safely_bind; [apply (calm_bc_flush H)|]. intros [i r] Hi; cbn in *. auto.
  Qed.
End MapItem.

Lemma merge_calm : forall S1 S2 T F E sl1 sl2 (P1 : buffered_producer S1 T F E) (P2 : buffered_producer S2 T F E) s1 s2,
  calm_buffered_producer sl1 P1 s1 -> calm_buffered_producer sl2 P2 s2 -> calm_merge P1 P2 (merge_new s1 s2).
Proof.
  intros S1 S2 T F E sl1 sl2 P1 P2 s1 s2 H1 H2.
  set (ok := fun m : merge S1 S2 =>
    (produce_future1 m <> None \/ produce_future2 m <> None) /\
    (forall s, produce_future1 m = Some s -> calm_buffered_producer sl1 P1 s) /\ (forall s, produce_future2 m = Some s -> calm_buffered_producer sl2 P2 s)).
  assert (Hleft : forall m s, ok m -> produce_future1 m = Some s -> produce_future2 m <> None ->
    safely (fun x => match snd x with Ready (Ok (inl _)) | Pending | Again => ok (fst x) | _ => True end) (merge_left P1 s m)).
  { intros m s (_ & Ha & Hb) Es Hne. unfold merge_left. eapply safely_bind; [apply (calm_bp_produce (Ha _ Es))|].
    intros [s' [[i|f]|e]] Hs; cbn in *; [| |exact Logic.I]; unfold ok; cbn.
    - split; [left; discriminate|]. split; [|exact Hb]. intros s0 E0. injection E0 as <-. exact (Hs _ eq_refl).
    - split; [now right|]. split; [discriminate|exact Hb]. }
  assert (Hright : forall m s, ok m -> produce_future2 m = Some s -> produce_future1 m <> None ->
    safely (fun x => match snd x with Ready (Ok (inl _)) | Pending | Again => ok (fst x) | _ => True end) (merge_right P2 s m)).
  { intros m s (_ & Ha & Hb) Es Hne. unfold merge_right. eapply safely_bind; [apply (calm_bp_produce (Hb _ Es))|].
    intros [s' [[i|f]|e]] Hs; cbn in *; [| |exact Logic.I]; unfold ok; cbn.
    - split; [right; discriminate|]. split; [exact Ha|]. intros s0 E0. injection E0 as <-. exact (Hs _ eq_refl).
    - split; [now left|]. split; [exact Ha|discriminate]. }
  assert (Hstep : forall c m, ok m ->
    safely (fun x => match snd x with Ready (Ok (inl _)) | Pending | Again => ok (fst x) | _ => True end) (merge_step P1 P2 c m)).
  { intros c [f1 f2] Hm. unfold merge_step. cbn [produce_future1 produce_future2]. destruct f1 as [s|], f2 as [s'|].
    - destruct c as [[|] [|] [|]]; cbn [second_first ready1 ready2]; first [apply Hleft | apply Hright | exact Hm]; auto; discriminate.
    - destruct (ready1 c); [|exact Hm]. destruct Hm as (_ & Ha & Hb). eapply safely_bind; [apply (calm_bp_produce (Ha _ eq_refl))|].
      intros [s3 [[i|f]|e]] Hs; cbn in *; auto; unfold ok; cbn; splits; [left; discriminate| |discriminate].
      intros s0 E0. injection E0 as <-. eauto.
    - destruct (ready2 c); [|exact Hm]. destruct Hm as (_ & Ha & Hb). eapply safely_bind; [apply (calm_bp_produce (Hb _ eq_refl))|].
      intros [s3 [[i|f]|e]] Hs; cbn in *; auto; unfold ok; cbn; splits; [right; discriminate|discriminate|].
      intros s0 E0. injection E0 as <-. eauto.
    - destruct Hm as ([Hm|Hm] & _); now elim Hm. }
  assert (Hrun : forall sched m, ok m ->
    safely (fun x => match snd x with None | Some (Ok (inl _)) => ok (fst (fst x)) | _ => True end) (merge_produce P1 P2 sched m)).
  { induction sched as [|c sched IH]; intros m Hm; cbn [merge_produce]; [exact Hm|].
    eapply safely_bind; [apply (Hstep c m Hm)|]. intros [m' [| |r]] H; cbn in H; [apply (IH _ H)..|]. exact H. }
  apply calm_intro with (Inv := fun m (over : bool) => over = true \/ ok m).
  - intros m [|] sched HI Ho; [discriminate|]. destruct HI as [HI|HI]; [discriminate|].
    eapply safely_bind; [apply (Hrun sched m HI)|]. intros [[m' rest] a] H. cbn in *. destruct a as [[[i|f]|e]|]; auto.
  - right. unfold ok, merge_new. cbn. splits; [left; discriminate| |]; intros s Es; injection Es as <-; assumption.
Qed.

(** ** Pipes *)
Section Pipes.
  Context {SP SC T F PE CE : Type}.

  Section Plain.
    Variables (sl : bool) (P : buffered_producer SP T F PE) (C : buffered_consumer SC T F CE).

    Lemma pipe_calm : forall fuel sp sc, calm_buffered_producer sl P sp -> calm_buffered_consumer C sc ->
      safely (pipe_leaves (fun _ => False) (calm_buffered_producer sl P) (calm_buffered_consumer C)) (pipe fuel P C sp sc).
    Proof.
      induction fuel as [|fuel IH]; intros sp sc Hp Hc; cbn [pipe]; [exact Logic.I|].
      eapply safely_bind; [apply (calm_bp_produce Hp)|]. intros [sp' [[i|f]|e]] H; cbn [fst snd] in H.
      - eapply safely_bind; [apply (calm_bc_consume i Hc)|]. intros [sc' [[]|e]] H2; cbn [fst snd] in H2; [eapply IH; eauto|exact Logic.I].
      - eapply safely_bind; [apply (calm_bc_close f Hc)|]. intros [sc' [[]|e]] _; cbn; auto. intros [].
      - exact Hc.
    Qed.

    Lemma pipe_at_most_calm : forall todo piped sp sc, calm_buffered_producer sl P sp -> calm_buffered_consumer C sc ->
      safely (pipe_leaves (fun n => n = piped + todo) (calm_buffered_producer sl P) (calm_buffered_consumer C)) (pipe_at_most_loop todo P C piped sp sc).
    Proof.
      induction todo as [|todo IH]; intros piped sp sc Hp Hc; cbn [pipe_at_most_loop]; [cbn; auto|].
      eapply safely_bind; [apply (calm_bp_produce Hp)|]. intros [sp' [[i|f]|e]] H; cbn [fst snd] in H.
      - eapply safely_bind; [apply (calm_bc_consume i Hc)|]. intros [sc' [[]|e]] H2; cbn [fst snd] in H2; [|exact Logic.I].
        replace (piped + Datatypes.S todo) with (piped + 1 + todo) by lia. eapply IH; eauto.
      - eapply safely_bind; [apply (calm_bc_close f Hc)|]. intros [sc' [[]|e]] _; cbn; auto. intros H3. lia.
      - exact Hc.
    Qed.
  End Plain.

  Section Bulk.
    Variables (sl : bool) (P : bulk_producer SP T F PE) (C : bulk_consumer SC T F CE).
    Hypothesis honest : honest_count C.
    Notation IP := (fun s => calm_p sl P s 0).
    Notation IC := (fun s => calm_c C s 0 0).

    Lemma bulk_pipe_calm : forall fuel sp sc k k' w, calm_p sl P sp k -> calm_c C sc k' w ->
      safely (pipe_leaves (fun _ => False) IP IC) (bulk_pipe fuel P C sp sc).
    Proof.
      induction fuel as [|fuel IH]; intros sp sc k k' w Hp Hc; cbn [bulk_pipe]; [exact Logic.I|].
      eapply safely_bind; [apply (calm_expose Hp)|]. intros [sp' [[ys|f]|e]] H; cbn [fst snd] in H.
      - eapply safely_bind; [apply safely_eq, (calm_bulk_consume ys Hc)|]. intros [sc' [n|e]] [H2 En]; cbn [fst snd] in H2; [|exact Logic.I].
        eapply safely_bind; [apply (calm_consider (H _ eq_refl) (honest _ _ En))|]. intros [sp2 [[]|e]] H3; cbn [fst snd] in H3.
        + eapply IH; eauto.
        + cbn. eauto.
      - eapply safely_bind; [apply (calm_close f Hc)|]. intros [sc' [[]|e]] _; cbn; auto. intros [].
      - cbn. eapply calm_c_less; [exact Hc|lia|lia].
    Qed.

    Lemma bulk_pipe_at_most_calm : forall fuel count piped sp sc k k' w, piped <= count -> calm_p sl P sp k -> calm_c C sc k' w ->
      safely (pipe_leaves (fun n => n = count) IP IC) (bulk_pipe_at_most_loop fuel P C count piped sp sc).
    Proof.
      induction fuel as [|fuel IH]; intros count piped sp sc k k' w Hle Hp Hc; cbn [bulk_pipe_at_most_loop]; [exact Logic.I|].
      destruct (piped <? count) eqn:El.
      2: { cbn. intros _. split; [eapply calm_p_less; [exact Hp|lia]|eapply calm_c_less; [exact Hc|lia|lia]]. }
      apply Nat.ltb_lt in El. eapply safely_bind; [apply (calm_expose Hp)|]. intros [sp' [[ys|f]|e]] H; cbn [fst snd] in H.
      - rewrite csub_ok by lia. cbn [bind]. rewrite slice_to_ok by lia. cbn [bind].
        eapply safely_bind; [apply safely_eq, (calm_bulk_consume _ Hc)|]. intros [sc' [n|e]] [H2 En]; cbn [fst snd] in H2; [|exact Logic.I].
        apply honest in En. rewrite firstn_length in En.
        eapply safely_bind; [apply (@calm_consider _ _ _ _ _ _ _ _ n (H _ eq_refl)); lia|]. intros [sp2 [[]|e]] H3; cbn [fst snd] in H3.
        + eapply IH; eauto. lia.
        + cbn. eauto.
      - eapply safely_bind; [apply (calm_close f Hc)|]. intros [sc' [[]|e]] _; cbn; auto. intros H3. lia.
      - cbn. eapply calm_c_less; [exact Hc|lia|lia].
    Qed.
  End Bulk.
End Pipes.

(** ** Whole slices *)
Section Slices.
  Context {S T F E : Type}.

  Lemma consume_full_slice_calm : forall (C : buffered_consumer S T F E) buf i s, calm_buffered_consumer C s ->
    safely (fun x => is_ok (snd x) = true -> calm_buffered_consumer C (fst x)) (consume_full_slice_from C i buf s).
  Proof.
    intros C. induction buf as [|y buf IH]; intros i s H; cbn [consume_full_slice_from]; [cbn; auto|].
    eapply safely_bind; [apply (calm_bc_consume y H)|]. intros [s' [[]|e]] Hs; cbn [fst snd] in Hs; [apply IH; auto|cbn; discriminate].
  Qed.

  Lemma overwrite_full_slice_calm : forall sl (P : buffered_producer S T F E) todo i buf s, i + todo = length buf -> calm_buffered_producer sl P s ->
    safely (fun x => length (fst (snd x)) = length buf /\ (is_ok (snd (snd x)) = true -> calm_buffered_producer sl P (fst x)))
      (overwrite_full_slice_from P todo i buf s).
  Proof.
    intros sl P. induction todo as [|todo IH]; intros i buf s Hl H; cbn [overwrite_full_slice_from]; [cbn; auto|].
    eapply safely_bind; [apply (calm_bp_produce H)|]. intros [s' [[y|f]|e]] Hs; cbn [fst snd] in Hs; [|cbn; split; [reflexivity|discriminate]..].
    rewrite index_set_ok by lia. cbn [bind].
    assert (Hb : length (blit i [y] buf) = length buf) by (apply length_blit; cbn; lia).
    rewrite <- Hb. apply IH; [lia|eauto].
  Qed.

  Lemma bulk_consume_full_slice_calm : forall (C : bulk_consumer S T F E) fuel i buf s k w, calm_c C s k w ->
    safely (fun x => is_ok (snd x) = true -> calm_c C (fst x) 0 0) (bulk_consume_full_slice_loop fuel C i buf s).
  Proof.
    intros C. induction fuel as [|fuel IH]; intros i buf s k w H; cbn [bulk_consume_full_slice_loop]; [exact Logic.I|].
    destruct (i <? length buf) eqn:El; [|cbn; intros _; eapply calm_c_less; [exact H|lia|lia]].
    apply Nat.ltb_lt in El. rewrite slice_from_ok by lia. cbn [bind].
    eapply safely_bind; [apply (calm_bulk_consume _ H)|]. intros [s' [n|e]] Hs; cbn [fst snd] in Hs; [eapply IH; eauto|cbn; discriminate].
  Qed.

  Lemma bulk_overwrite_full_slice_calm : forall sl (P : bulk_producer S T F E), keeps_length P -> forall fuel i buf s k, calm_p sl P s k ->
    safely (fun x => length (fst (snd x)) = length buf /\ (is_ok (snd (snd x)) = true -> calm_p sl P (fst x) 0)) (bulk_overwrite_full_slice_loop fuel P i buf s).
  Proof.
    intros sl P HL. induction fuel as [|fuel IH]; intros i buf s k H; cbn [bulk_overwrite_full_slice_loop]; [exact Logic.I|].
    destruct (i <? length buf) eqn:El; [|cbn; split; [reflexivity|]; intros _; eapply calm_p_less; [exact H|lia]].
    apply Nat.ltb_lt in El. rewrite slice_from_ok by lia. cbn [bind].
    eapply safely_bind; [apply safely_eq, (calm_bulk_produce _ H)|]. intros [s' [b r]] [Hs Eb]; cbn [fst snd] in Hs. apply HL in Eb.
    rewrite skipn_length in Eb.
    assert (Hb : length (firstn i buf ++ b) = length buf) by (rewrite app_length, firstn_length; lia).
    destruct r as [[n|f]|e]; [|cbn; split; [exact Hb|discriminate]..]. rewrite <- Hb. eapply IH. eauto.
  Qed.

  Lemma default_keeps_length : forall (produce : S -> outcome (S * res (T + F) E)) slurp expose consider,
    keeps_length (bulk_producer_of produce slurp expose consider).
  Proof.
    intros produce slurp expose consider buf s s' buf' r. cbn. unfold default_bulk_produce.
    destruct (expose s) as [[s1 [[ys|f]|e]]| |]; cbn -[Nat.min]; try discriminate.
    - destruct (consider (Nat.min (length ys) (length buf)) s1) as [[s2 [[]|e]]| |]; cbn -[Nat.min]; try discriminate;
        intros H; injection H; intros; subst; rewrite app_length, firstn_length, skipn_length; lia.
    - intros H; injection H; intros; subst; reflexivity.
    - intros H; injection H; intros; subst; reflexivity.
  Qed.
  Lemma default_honest_count : forall (consume : T -> S -> outcome (S * res unit E)) (close : F -> S -> outcome (S * res unit E)) flush expose write slots,
    honest_count (bulk_consumer_of consume close flush expose write slots).
  Proof.
    intros consume close flush expose write slots buf s s' n. cbn. unfold default_bulk_consume.
    destruct (expose s) as [[s1 [m|e]]| |]; cbn -[Nat.min]; try discriminate.
    destruct (slots (Nat.min m (length buf)) _) as [[s2 [[]|e]]| |]; cbn -[Nat.min]; try discriminate.
    intros H; injection H; intros; subst; lia.
  Qed.
End Slices.

(** ** Codecs *)
Lemma endian_encode_calm : forall w, calm_encode (endian_encode w).
Proof.
  intros w S F E C v s H. unfold endian_encode. eapply safely_bind; [apply (@bulk_consume_full_slice_calm _ _ _ _ C _ 0 _ s 0 0 H)|].
  intros [s' [u|e]] Hs; cbn in *; [auto|discriminate].
Qed.
Lemma endian_decode_calm : forall w, calm_decode (endian_decode w).
Proof.
  intros w S F E P sl s HL H. unfold endian_decode. eapply safely_bind; [apply (@bulk_overwrite_full_slice_calm _ _ _ _ sl P HL _ 0 _ s 0 H)|].
  intros [s' [b [[]|e]]] [Hb Hs]; cbn in *; [auto|discriminate].
Qed.

Section Codecs.
  Context {S F E V O RT : Type}.

  Lemma encoder_calm : forall encode (C : bulk_consumer S byte F E), calm_encode encode -> forall s,
    calm_consumer C s -> calm_buffered_consumer (@encoder S F E V encode C) s.
  Proof.
    intros encode C HE s H. apply calm_bc_intro with (Inv := calm_consumer C); [..|exact H]; clear s H.
    - intros x s H. eapply safely_weaken; [apply (HE _ _ _ C x s H)|]. intros [s' r] Hs Hr. cbn in *. subst. auto.
    - intros f s H. exact (calm_close f H).
    - intros s H. exact (calm_flush H).
  Qed.
  Lemma relative_encoder_calm : forall relative_encode (C : bulk_consumer S byte F E), (forall r : RT, calm_encode (relative_encode r)) -> forall s r,
    calm_consumer C s -> calm_buffered_consumer (@relative_encoder S F E V RT relative_encode C) (mk_relative s r).
  Proof.
    intros encode C HE s r H. apply calm_bc_intro with (Inv := fun s => calm_consumer C (rel_inner s)); [..|exact H]; clear s r H.
    - intros x s H. cbn. unfold on_inner. eapply safely_bind; [apply (HE _ _ _ _ C x _ H)|]. intros [s' r] Hs; cbn in *. intros ->. auto.
    - intros f s H. cbn. unfold on_inner. eapply safely_bind; [apply (calm_close f H)|]. intros [s' r] _. exact Logic.I.
    - intros s H. cbn. unfold on_inner. eapply safely_bind; [apply (calm_flush H)|]. intros [s' r] Hs; cbn in *. auto.
  Qed.

  Lemma decoder_produce_calm : forall decode (P : bulk_producer S byte F E) sl, @calm_decode V O decode -> keeps_length P -> forall s, calm_producer sl P s ->
    safely (fun x => forall i, snd x = Ok (inl i) -> calm_producer sl P (fst x)) (decoder_produce decode P s).
  Proof.
    intros decode P sl HD HL s H. unfold decoder_produce. eapply safely_bind; [apply (calm_expose H)|].
    intros [s' [[ys|f]|e]] Hs; cbn [fst snd] in Hs; [|cbn; discriminate..].
    assert (H' : calm_producer sl P s') by (eapply calm_p_less; [exact (Hs _ eq_refl)|lia]).
    eapply safely_bind; [apply (HD _ _ _ P sl s' HL H')|]. intros [s2 [v|e]] H2; cbn in *; [auto|discriminate].
  Qed.
  Lemma decoder_slurp_calm : forall (P : bulk_producer S byte F E) sl s, sl = true -> calm_producer sl P s ->
    safely (fun x => snd x = Ok tt -> calm_producer sl P (fst x)) (@decoder_slurp S F E O P s).
  Proof.
    intros P sl s Hsl H. unfold decoder_slurp. eapply safely_bind; [apply (@calm_slurp _ _ _ _ sl P s 0 Hsl H)|].
    intros [s' [[]|e]] Hs; cbn in *; [intros _; exact (Hs eq_refl)|discriminate].
  Qed.
  Lemma decoder_calm : forall decode (P : bulk_producer S byte F E) sl, @calm_decode V O decode -> keeps_length P -> forall s,
    calm_producer sl P s -> calm_buffered_producer sl (decoder decode P) s.
  Proof.
    intros decode P sl HD HL s H. apply calm_bp_intro with (Inv := calm_producer sl P); [..|exact H]; clear s H.
    - intros s H. apply (decoder_produce_calm HD HL H).
    - intros s Hsl H. apply (decoder_slurp_calm Hsl H).
  Qed.
  Lemma relative_decoder_calm : forall relative_decode (P : bulk_producer S byte F E) sl, (forall r : RT, @calm_decode V O (relative_decode r)) ->
    keeps_length P -> forall s r, calm_producer sl P s -> calm_buffered_producer sl (relative_decoder relative_decode P) (mk_relative s r).
  Proof.
    intros decode P sl HD HL s r H. apply calm_bp_intro with (Inv := fun s => calm_producer sl P (rel_inner s)); [..|exact H]; clear s r H.
    - intros s H. cbn. unfold on_inner. eapply safely_bind; [apply (decoder_produce_calm (HD (relative_to s)) HL H)|].
      intros [s' r] Hs; cbn in *. auto.
    - intros s Hsl H. cbn. unfold on_inner. eapply safely_bind; [apply (decoder_slurp_calm Hsl H)|]. intros [s' r] Hs; cbn in *. auto.
  Qed.
End Codecs.

(** ** Lawful objects are calm *)
Section Lawful.
  Context {S T F E : Type}.

  (** Marking nothing as produced is permitted even if nothing was exposed. *)
  Lemma lawful_producer_calm : forall (P : bulk_producer S T F E) R D sl,
    lawful_producer_core P R D -> (sl = true -> lawful_slurp P R D) ->
    P = bulk_producer_of (p_produce P) (p_slurp P) (p_expose P) (p_consider P) ->
    (forall s xs l, R s xs l 0 -> safely (fun x => snd x = Ok tt -> R (fst x) xs l 0) (p_consider P 0 s)) ->
    forall s xs l k, R s xs l k -> calm_p sl P s k.
  Proof.
    intros P R D sl L LS EP H0 s xs l k H. rewrite EP.
    apply calm_producer_of with (Inv := fun s k => exists xs l, R s xs l k); [..|eauto]; clear s xs l k H.
    - intros s k (xs & l & H). exists xs, l. exact (lp_forget L H).
    - intros s k ([|x xs] & l & H).
      + destruct (lp_produce_last L H) as (s' & E1 & _). rewrite E1. cbn. destruct l; discriminate.
      + destruct (lp_produce L H) as (s' & E1 & H'). rewrite E1. cbn. eauto.
    - intros s k Hsl (xs & l & H). destruct (LS Hsl _ _ _ _ H) as [(s' & E1 & H')|(s' & e & E1 & _)]; rewrite E1; cbn; [eauto|discriminate].
    - intros s k (xs & l & H). destruct xs as [|x xs].
      + destruct (lp_expose_last L H) as (s' & E1 & _). rewrite E1. cbn. destruct l; discriminate.
      + destruct (lp_expose L H) as (s' & ys & rest & E1 & Hne & Hx & H'); [discriminate|]. rewrite E1. cbn.
        intros zs Ez. injection Ez as <-. eauto.
    - intros s k n (xs & l & H) Hn. destruct (Nat.eq_dec k 0) as [->|Hk].
      + replace n with 0 by lia. eapply safely_weaken; [apply (H0 _ _ _ H)|]. cbn. eauto.
      + destruct (lp_consider L n H) as (s' & E1 & H'); [lia|lia|]. rewrite E1. cbn. eauto.
  Qed.

  Lemma lawful_consumer_calm : forall A (C : bulk_consumer S T F E) (M : machine A T F E) R D,
    lawful_consumer_core C M R D ->
    C = bulk_consumer_of (c_consume C) (c_close C) (c_flush C) (c_expose C) (c_write C) (c_consume_slots C) ->
    (forall s a, R s a 0 [] -> safely (fun x => snd x = Ok tt -> R (fst x) a 0 []) (c_consume_slots C 0 s)) ->
    forall s a k w, R s a k w -> calm_c C s k (length w).
  Proof.
    intros A C M R D L EC H0 s a k w H. rewrite EC.
    apply calm_consumer_of with (Inv := fun s k n => exists a w, R s a k w /\ n <= length w); [..|eauto]; clear s a k w H.
    - intros s k n (a & w & H & Hn). exists a, []. split; [exact (lc_forget L H)|cbn; lia].
    - intros x s k n (a & w & H & Hn). destruct (lc_consume L x H) as (s' & E1 & H'). rewrite E1. cbn.
      destruct (m_step M x a) as [a' [u|e]]; [|discriminate]. intros _. exists a', []. auto.
    - intros f s k n (a & w & H & Hn). destruct (lc_close L f H) as (s' & E1 & H'). rewrite E1. exact Logic.I.
    - intros s k n (a & w & H & Hn). destruct (lc_flush L H) as (s' & E1 & H'). rewrite E1. cbn.
      destruct (m_flush M a) as [a' [u|e]]; [|discriminate]. intros _. exists a', w. auto.
    - intros s k n (a & w & H & Hn). destruct (lc_expose L H) as [(s' & m & E1 & _ & H')|(s' & e & a' & E1 & _)]; rewrite E1; cbn; [|discriminate].
      intros j Ej. injection Ej as <-. exists a, []. auto.
    - intros ys s k n (a & w & H & Hn) Hy. exists a, (overlay ys w). split; [exact (lc_write L ys H Hy)|]. rewrite length_overlay_max. lia.
    - intros n s k m (a & w & H & Hm) Hn. destruct (Nat.eq_dec k 0) as [->|Hk].
      + pose proof (lc_wf L H) as Hw. assert (w = []) as -> by (destruct w; [reflexivity|cbn in Hw; lia]). cbn in Hm. assert (m = 0) as -> by lia. assert (n = 0) as -> by lia.
        eapply safely_weaken; [apply (H0 _ _ H)|]. cbn. intros x Hx Ho. exists a, []. auto.
      + pose proof (lc_consume_slots L n H) as Hs. destruct (m_feed M (firstn n w) a) as [[a' j] [e|]].
        * destruct Hs as (s' & E1 & _); [lia|lia|]. rewrite E1. cbn. discriminate.
        * destruct Hs as (s' & E1 & H'); [lia|lia|]. rewrite E1. cbn. intros _. exists a', (skipn n w). split; [exact H'|]. rewrite skipn_length. lia.
  Qed.
End Lawful.

Lemma from_slice_calm : forall T (l : list T), calm_p true from_slice_producer (from_slice_new l) 0.
Proof.
  intros T l. eapply lawful_producer_calm; [apply from_slice_core|intros _; apply from_slice_slurp_lawful|reflexivity| |apply fs_rel_new].
  intros s xs l' H. cbn. intros _. rewrite Nat.add_0_r. destruct s. exact H.
Qed.
Lemma empty_calm : forall T F E (f : F), calm_p true (@empty_producer T F E) (empty_new f) 0.
Proof.
  intros T F E f. eapply lawful_producer_calm with (R := @empty_rel T F E) (xs := []) (l := Ok f); [apply empty_core|intros _; apply empty_slurp_lawful|reflexivity| |].
  - intros s xs l' H. cbn. intros _. exact H.
  - unfold empty_rel, empty_new. eauto 6.
Qed.
Lemma test_producer_calm : forall T F E (items : list T) (last : res F E) sizes pattern, match sizes with Some l => Forall (fun n => 1 <= n) l | None => True end ->
  calm_p true test_producer (test_producer_build items last sizes pattern) 0.
Proof.
  intros T F E items last sizes pattern Hs.
  eapply lawful_producer_calm; [apply test_producer_core|intros _; apply test_producer_slurp_lawful|reflexivity| |apply tp_rel_build, Hs].
  intros s xs l H. cbn. unfold test_producer_consider. destruct (tp_yield_ok H) as (s' & E1 & H' & _). rewrite E1. cbn [bind].
  unfold tp_check_error. pose proof H' as (Hf & Hl & Hz & Hy). rewrite (fs_not_yet Hf). cbn [bind].
  assert (Hgo : tp_rel (set_inner (mk_from_slice (fs_slice (tp_inner s')) (fs_offset (tp_inner s') + 0)) s') xs l 0).
  { rewrite Nat.add_0_r. destruct s' as [[sl off] la sz y]. exact H'. }
  destruct xs.
  - rewrite Hl. cbn. destruct l; cbn; [intros _; exact Hgo|discriminate].
  - cbn. intros _. exact Hgo.
Qed.
Lemma into_vec_calm : forall T (d : T) v, calm_c (into_vec_consumer d) (into_vec_from_vec v) 0 0.
Proof.
  intros T d v. eapply lawful_consumer_calm with (w := []); [apply into_vec_core|reflexivity| |apply iv_rel_from_vec].
  intros s a H. cbn. intros _. rewrite Nat.add_0_r. destruct s. exact H.
Qed.
Lemma test_consumer_calm : forall T F E (d : T) (e : E) n sizes pattern, match sizes with Some l => Forall (fun n => 1 <= n) l | None => True end ->
  calm_c (test_consumer (F := F) d) (test_consumer_build e n sizes pattern) 0 0.
Proof.
  intros T F E d e n sizes pattern Hs.
  eapply lawful_consumer_calm with (w := []) (R := tc_rel (F := F) e); [apply test_consumer_core|reflexivity| |apply tc_rel_build, Hs].
  intros s a H. cbn. unfold test_consumer_consume_slots. destruct (tc_yield_ok H) as (s' & E1 & H' & _). rewrite E1. cbn [bind].
  pose proof H' as (Hi & Hf & Hl & He & Hfl & Hk & Hz & Hy).
  destruct (Nat.eq_dec (t_left a) 0) as [Ez|Ez].
  - unfold tc_check_error. rewrite Hl, Ez, He. cbn. discriminate.
  - rewrite (tc_check_ok H') by lia. cbn [bind]. cbn. rewrite csub_ok by lia. cbn. intros _. rewrite Nat.sub_0_r, Nat.add_0_r.
    destruct s' as [[v c] fi er le sz y]. exact H'.
Qed.

(** ** Towers *)
Lemma ptower_calm : forall T F E G S sl (t : ptower T F E G) (P : bulk_producer S T F E) s, pt_fits sl t -> calm_p sl P s 0 ->
  calm_p (pt_slurps sl t) (pt_producer P t) (pt_new s t) 0.
Proof.
  intros T F E G S sl t. induction t; intros P s Hf H; cbn in *.
  - exact H.
  - eapply limit_producer_calm. now apply IHt.
  - apply map_final_producer_calm. now apply IHt.
  - eapply invariant_producer_calm. now apply IHt.
  - destruct Hf as (Hc & Hs & Hf). eapply pscr_producer_calm; [exact Hc|exact Hs|]. now apply IHt.
Qed.
Lemma ctower_calm : forall T F E G B S (t : ctower F E G B) (C : bulk_consumer S T F E) s, calm_c C s 0 0 -> calm_c (ct_consumer C t) (ct_new s t) 0 0.
Proof.
  intros T F E G B S t. induction t; intros C s HC; cbn in *.
  - exact HC.
  - eapply limit_consumer_calm. now apply IHt.
  - apply map_final_consumer_calm. now apply IHt.
  - eapply invariant_consumer_calm. now apply IHt.
Qed.

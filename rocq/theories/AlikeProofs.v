(** Proofs: objects that are alike may be exchanged for each other below any adaptor, in any pipe, and by any codec.

    Method: put guards around two objects that are alike, with a forbidden call ending in [NoFuel]. The guarded objects are related for all
    calls whatsoever, so that everything built on them is related as well (parametricity); and the guards make no difference (C86). *)
From Coq Require Import Bool List Arith Lia.
From Coq.Init Require Import Byte.
From Verif Require Import Prelude ListFacts QueueModel Traits BasicModel AdaptorModel ScramblerModel MergeModel CodecModel
  EndianModel TowerModel Contracts AdaptorSpec RulesSpec RulesProofs RulesAdaptorProofs SafeSpec AlikeSpec.
Import ListNotations.
Set Implicit Arguments.

(** ** [both] *)

Lemma both_bind : forall X Y X' Y' (Q : X -> Y -> Prop) (Q' : X' -> Y' -> Prop) o1 o2 k1 k2,
  both Q o1 o2 -> (forall x y, Q x y -> both Q' (k1 x) (k2 y)) -> both Q' (bind o1 k1) (bind o2 k2).
Proof. intros X Y X' Y' Q Q' [x| |] [y| |] k1 k2 H Hk; cbn in *; auto; try contradiction. Qed.
Lemma both_same : forall X X' Y' (Q' : X' -> Y' -> Prop) (o : outcome X) k1 k2, (forall x, both Q' (k1 x) (k2 x)) -> both Q' (bind o k1) (bind o k2).
Proof. intros X X' Y' Q' [x| |] k1 k2 H; cbn; auto. Qed.
Lemma both_refl : forall X (Q : X -> X -> Prop) o, (forall x, Q x x) -> both Q o o.
Proof. intros X Q [x| |] H; cbn; auto. Qed.
Lemma both_assert : forall X Y (Q : X -> Y -> Prop) dbg b o1 o2, both Q o1 o2 -> both Q (debug_assert dbg b o1) (debug_assert dbg b o2).
Proof. intros X Y Q dbg b o1 o2 H. unfold debug_assert. destruct (dbg && negb b); [exact Logic.I|exact H]. Qed.
Lemma both_weaken : forall X Y (Q Q' : X -> Y -> Prop) o1 o2, both Q o1 o2 -> (forall x y, Q x y -> Q' x y) -> both Q' o1 o2.
Proof. intros X Y Q Q' [x| |] [y| |] H Hk; cbn in *; auto. Qed.
Lemma both_and : forall X Y (Q Q' : X -> Y -> Prop) o1 o2, both Q o1 o2 -> both Q' o1 o2 -> both (fun x y => Q x y /\ Q' x y) o1 o2.
Proof. intros X Y Q Q' [x| |] [y| |] H Hk; cbn in *; auto. Qed.
Lemma both_omap : forall X Y Z (f : X -> Z) (g : Y -> Z) o1 o2, both (fun x y => f x = g y) o1 o2 <-> omap f o1 = omap g o2.
Proof. intros X Y Z f g [x| |] [y| |]; cbn; split; try easy; congruence. Qed.

(** ** [alike] as a coinductive notion *)
Section Alike.
  Context {S1 S2 M O A : Type} (may : M -> O -> bool) (saw : M -> O -> A -> M) (call1 : O -> S1 -> outcome (S1 * A)) (call2 : O -> S2 -> outcome (S2 * A)).

  Lemma alike_step : forall s1 s2 m o, alike may saw call1 call2 m s1 s2 -> may m o = true ->
    both (fun x y => snd x = snd y /\ alike may saw call1 call2 (saw m o (snd x)) (fst x) (fst y)) (call1 o s1) (call2 o s2).
  Proof.
    intros s1 s2 m o H Ho. pose proof (H [o]) as H1. cbn in H1. rewrite Ho in H1.
    destruct (call1 o s1) as [[s1' a1]| |] eqn:E1, (call2 o s2) as [[s2' a2]| |] eqn:E2; cbn in *; try discriminate; auto.
    injection H1 as <-. split; [reflexivity|]. intros ops. specialize (H (o :: ops)). cbn in H. rewrite Ho, E1, E2 in H. cbn in H.
    destruct (obeying may saw call1 ops (saw m o a1) s1') as [[[? ?] ?]| |], (obeying may saw call2 ops (saw m o a1) s2') as [[[? ?] ?]| |];
      cbn in *; try discriminate; congruence.
  Qed.

  Lemma alike_intro : forall (R : M -> S1 -> S2 -> Prop),
    (forall m s1 s2 o, R m s1 s2 -> may m o = true -> both (fun x y => snd x = snd y /\ R (saw m o (snd x)) (fst x) (fst y)) (call1 o s1) (call2 o s2)) ->
    forall m s1 s2, R m s1 s2 -> alike may saw call1 call2 m s1 s2.
  Proof.
    intros R Hstep m s1 s2 HR ops. revert m s1 s2 HR. induction ops as [|o ops IH]; intros m s1 s2 HR; cbn; [reflexivity|].
    destruct (may m o) eqn:Ho; [|reflexivity]. specialize (Hstep _ _ _ o HR Ho).
    destruct (call1 o s1) as [[s1' a1]| |], (call2 o s2) as [[s2' a2]| |]; cbn in *; try contradiction; auto.
    destruct Hstep as [<- HR']. specialize (IH _ _ _ HR').
    destruct (obeying may saw call1 ops (saw m o a1) s1') as [[[? ?] ?]| |], (obeying may saw call2 ops (saw m o a1) s2') as [[[? ?] ?]| |];
      cbn in *; try discriminate; congruence.
  Qed.
End Alike.

Section Alike2.
  Context {S1 S2 M O A : Type} (may may' : M -> O -> bool) (saw : M -> O -> A -> M) (call1 : O -> S1 -> outcome (S1 * A)) (call2 : O -> S2 -> outcome (S2 * A)).

  (** Callers that do less. *)
  Lemma alike_mono : forall (le : M -> M -> Prop),
    (forall m m' o, le m m' -> may m o = true -> may' m' o = true /\ forall a, le (saw m o a) (saw m' o a)) ->
    forall s1 s2 m m', le m m' -> alike may' saw call1 call2 m' s1 s2 -> alike may saw call1 call2 m s1 s2.
  Proof.
    intros le Hle s1 s2 m m' Hm Hc.
    apply alike_intro with (R := fun m s1 s2 => exists m', le m m' /\ alike may' saw call1 call2 m' s1 s2); [|eauto].
    clear s1 s2 m m' Hm Hc. intros m s1 s2 o (m' & Hm & Hc) Ho. destruct (Hle _ _ _ Hm Ho) as [Ho' Hs].
    eapply both_weaken; [exact (@alike_step _ _ _ _ _ _ _ _ _ _ _ _ o Hc Ho')|]. intros [s1' a] [s2' a'] [<- H]. cbn in *. eauto.
  Qed.
End Alike2.

Lemma alike_sym : forall S1 S2 M O A may saw (call1 : O -> S1 -> outcome (S1 * A)) (call2 : O -> S2 -> outcome (S2 * A)) (m : M) s1 s2,
  alike may saw call1 call2 m s1 s2 -> alike may saw call2 call1 m s2 s1.
Proof. intros. intros ops. symmetry. apply H. Qed.
Lemma alike_trans : forall S1 S2 S3 M O A may saw (call1 : O -> S1 -> outcome (S1 * A)) (call2 : O -> S2 -> outcome (S2 * A)) (call3 : O -> S3 -> outcome (S3 * A))
  (m : M) s1 s2 s3, alike may saw call1 call2 m s1 s2 -> alike may saw call2 call3 m s2 s3 -> alike may saw call1 call3 m s1 s3.
Proof. intros S1 S2 S3 M O A may saw c1 c2 c3 m s1 s2 s3 H1 H2 ops. rewrite H1. apply H2. Qed.
Lemma alike_same : forall S M O A (may : M -> O -> bool) saw (call1 call2 : O -> S -> outcome (S * A)) (good : S -> Prop),
  (forall m o s, good s -> may m o = true -> call1 o s = call2 o s /\ forall x, call1 o s = Ret x -> good (fst x)) ->
  forall (m : M) s, good s -> alike may saw call1 call2 m s s.
Proof.
  intros S M O A may saw c1 c2 good H m s Hs. apply alike_intro with (R := fun m s1 s2 => s1 = s2 /\ good s1); [|auto].
  clear m s Hs. intros m s1 s2 o [<- Hs] Ho. destruct (H m o s1 Hs Ho) as [E1 Hg]. rewrite E1 in *. destruct (c2 o s1) as [x| |]; cbn; auto.
Qed.

(** ** Objects that are related for all calls *)

Section Related.
  Context {S1 S2 T F E : Type} (R : S1 -> S2 -> Prop).

  Section P.
    Variables (P1 : bulk_producer S1 T F E) (P2 : bulk_producer S2 T F E).
    Hypothesis HP : related_producers R P1 P2.

    Ltac use o := let H := fresh in intros s1 s2 Hs; pose proof (HP o Hs) as H; cbn in H |- *.

    Lemma rel_produce : forall s1 s2, R s1 s2 -> both (linked R) (p_produce P1 s1) (p_produce P2 s2).
    Proof.
      use (@PProduce T). destruct (p_produce P1 s1) as [[? ?]| |], (p_produce P2 s2) as [[? ?]| |]; cbn in *; auto.
      destruct H as [H1 H2]. cbn in *. split; cbn; congruence.
    Qed.
    Lemma rel_slurp : forall s1 s2, R s1 s2 -> both (linked R) (p_slurp P1 s1) (p_slurp P2 s2).
    Proof.
      use (@PSlurp T). destruct (p_slurp P1 s1) as [[? ?]| |], (p_slurp P2 s2) as [[? ?]| |]; cbn in *; auto.
      destruct H as [H1 H2]. cbn in *. split; cbn; congruence.
    Qed.
    Lemma rel_expose : forall s1 s2, R s1 s2 -> both (linked R) (p_expose P1 s1) (p_expose P2 s2).
    Proof.
      use (@PExpose T). destruct (p_expose P1 s1) as [[? ?]| |], (p_expose P2 s2) as [[? ?]| |]; cbn in *; auto.
      destruct H as [H1 H2]. cbn in *. split; cbn; congruence.
    Qed.
    Lemma rel_consider : forall n s1 s2, R s1 s2 -> both (linked R) (p_consider P1 n s1) (p_consider P2 n s2).
    Proof.
      intros n. use (@PConsider T n). destruct (p_consider P1 n s1) as [[? ?]| |], (p_consider P2 n s2) as [[? ?]| |]; cbn in *; auto.
      destruct H as [H1 H2]. cbn in *. split; cbn; congruence.
    Qed.
    Lemma rel_bulk_produce : forall buf s1 s2, R s1 s2 -> both (linked R) (p_bulk_produce P1 buf s1) (p_bulk_produce P2 buf s2).
    Proof.
      intros buf. use (@PBulkProduce T buf). destruct (p_bulk_produce P1 buf s1) as [[? [? ?]]| |], (p_bulk_produce P2 buf s2) as [[? [? ?]]| |]; cbn in *; auto.
      destruct H as [H1 H2]. cbn in *. split; cbn; congruence.
    Qed.

    Lemma related_producers_alike : forall m s1 s2, R s1 s2 -> alike (@p_may T) (@p_saw T F E) (p_do P1) (p_do P2) m s1 s2.
    Proof.
      intros m s1 s2 H. apply alike_intro with (R := fun _ => R); [|exact H]. clear m s1 s2 H. intros m s1 s2 o H Ho.
      eapply both_weaken; [exact (HP o H)|]. intros [s1' a] [s2' a'] [H1 H2]. auto.
    Qed.
  End P.

  Section C.
    Variables (C1 : bulk_consumer S1 T F E) (C2 : bulk_consumer S2 T F E).
    Hypothesis HC : related_consumers R C1 C2.

    Ltac use o := let H := fresh in intros s1 s2 Hs; pose proof (HC o Hs) as H; cbn in H |- *.

    Lemma rel_consume : forall x s1 s2, R s1 s2 -> both (linked R) (c_consume C1 x s1) (c_consume C2 x s2).
    Proof.
      intros x. use (@CConsume T F x). destruct (c_consume C1 x s1) as [[? ?]| |], (c_consume C2 x s2) as [[? ?]| |]; cbn in *; auto.
      destruct H as [H1 H2]. cbn in *. split; cbn; congruence.
    Qed.
    Lemma rel_close : forall f s1 s2, R s1 s2 -> both (linked R) (c_close C1 f s1) (c_close C2 f s2).
    Proof.
      intros f. use (@CClose T F f). destruct (c_close C1 f s1) as [[? ?]| |], (c_close C2 f s2) as [[? ?]| |]; cbn in *; auto.
      destruct H as [H1 H2]. cbn in *. split; cbn; congruence.
    Qed.
    Lemma rel_flush : forall s1 s2, R s1 s2 -> both (linked R) (c_flush C1 s1) (c_flush C2 s2).
    Proof.
      use (@CFlush T F). destruct (c_flush C1 s1) as [[? ?]| |], (c_flush C2 s2) as [[? ?]| |]; cbn in *; auto.
      destruct H as [H1 H2]. cbn in *. split; cbn; congruence.
    Qed.
    Lemma rel_expose_slots : forall s1 s2, R s1 s2 -> both (linked R) (c_expose C1 s1) (c_expose C2 s2).
    Proof.
      use (@CExpose T F). destruct (c_expose C1 s1) as [[? ?]| |], (c_expose C2 s2) as [[? ?]| |]; cbn in *; auto.
      destruct H as [H1 H2]. cbn in *. split; cbn; congruence.
    Qed.
    Lemma rel_write : forall ys s1 s2, R s1 s2 -> R (c_write C1 ys s1) (c_write C2 ys s2).
    Proof. intros ys s1 s2 H. exact (proj1 (HC (CWrite ys) H)). Qed.
    Lemma rel_consume_slots : forall n s1 s2, R s1 s2 -> both (linked R) (c_consume_slots C1 n s1) (c_consume_slots C2 n s2).
    Proof.
      intros n. use (@CConsumeSlots T F n). destruct (c_consume_slots C1 n s1) as [[? ?]| |], (c_consume_slots C2 n s2) as [[? ?]| |]; cbn in *; auto.
      destruct H as [H1 H2]. cbn in *. split; cbn; congruence.
    Qed.
    Lemma rel_bulk_consume : forall buf s1 s2, R s1 s2 -> both (linked R) (c_bulk_consume C1 buf s1) (c_bulk_consume C2 buf s2).
    Proof.
      intros buf. use (@CBulkConsume T F buf). destruct (c_bulk_consume C1 buf s1) as [[? ?]| |], (c_bulk_consume C2 buf s2) as [[? ?]| |]; cbn in *; auto.
      destruct H as [H1 H2]. cbn in *. split; cbn; congruence.
    Qed.

    Lemma related_consumers_alike : forall m s1 s2, R s1 s2 -> alike (@c_may T F) (@c_saw T F E) (c_do C1) (c_do C2) m s1 s2.
    Proof.
      intros m s1 s2 H. apply alike_intro with (R := fun _ => R); [|exact H]. clear m s1 s2 H. intros m s1 s2 o H Ho.
      eapply both_weaken; [exact (HC o H)|]. intros [s1' a] [s2' a'] [H1 H2]. auto.
    Qed.
  End C.
End Related.

(** Steps through two computations that differ in the inner object only. *)
Ltac inner_call :=
  first [eapply rel_produce; eassumption | eapply rel_slurp; eassumption | eapply rel_expose; eassumption | eapply rel_consider; eassumption
        | eapply rel_bulk_produce; eassumption | eapply rel_consume; eassumption | eapply rel_close; eassumption | eapply rel_flush; eassumption
        | eapply rel_expose_slots; eassumption | eapply rel_consume_slots; [eassumption|first [eassumption|eapply rel_write; eassumption]]
        | eapply rel_bulk_consume; eassumption | eassumption].
Ltac unlink := repeat match goal with
  | H : linked _ _ _ |- _ => destruct H; cbn [fst snd] in *
  end; subst.
Ltac par1 :=
  match goal with
  | |- both _ (Ret _) (Ret _) => cbn [both]
  | |- both _ Panic Panic => exact Logic.I
  | |- both _ NoFuel NoFuel => exact Logic.I
  | |- both _ (debug_assert _ _ _) (debug_assert _ _ _) => apply both_assert
  | |- both _ (bind ?o _) (bind ?o _) => apply both_same; intros
  | |- both _ (bind _ _) (bind _ _) => eapply both_bind; [inner_call|intros [? ?] [? ?] ?; unlink]
  | |- both _ (match ?x with _ => _ end) (match ?x with _ => _ end) => destruct x
  end.
Ltac fields := cbn [lim_inner lim_remaining wf_inner wf_fun inv_inner inv_active inv_exposed ps_inner ps_buffer ps_last ps_operations ps_index
  cs_inner cs_buffer cs_operations cs_index mi_inner mi_closure rel_inner relative_to fst snd].
Ltac par := fields; repeat (par1; fields).

(** How to show that objects with the default bulk methods are related. *)
Section Intro.
  Context {S1 S2 T F E : Type} (R : S1 -> S2 -> Prop).

  Lemma related_producers_of : forall (produce1 : S1 -> outcome (S1 * res (T + F) E)) produce2 slurp1 slurp2 expose1 expose2 consider1 consider2,
    (forall s1 s2, R s1 s2 -> both (linked R) (produce1 s1) (produce2 s2)) ->
    (forall s1 s2, R s1 s2 -> both (linked R) (slurp1 s1) (slurp2 s2)) ->
    (forall s1 s2, R s1 s2 -> both (linked R) (expose1 s1) (expose2 s2)) ->
    (forall n s1 s2, R s1 s2 -> both (linked R) (consider1 n s1) (consider2 n s2)) ->
    related_producers R (bulk_producer_of produce1 slurp1 expose1 consider1) (bulk_producer_of produce2 slurp2 expose2 consider2).
  Proof.
    intros p1 p2 l1 l2 e1 e2 c1 c2 Hp Hl He Hc o s1 s2 H. destruct o; cbn -[default_bulk_produce].
    - eapply both_bind; [exact (Hp _ _ H)|]. intros [? ?] [? ?] ?; unlink. split; auto.
    - eapply both_bind; [exact (Hl _ _ H)|]. intros [? ?] [? ?] ?; unlink. split; auto.
    - eapply both_bind; [exact (He _ _ H)|]. intros [? ?] [? ?] ?; unlink. split; auto.
    - eapply both_bind; [exact (Hc n _ _ H)|]. intros [? ?] [? ?] ?; unlink. split; auto.
    - eapply both_bind with (Q := linked R).
      + unfold default_bulk_produce. eapply both_bind; [exact (He _ _ H)|]. intros [? ra] [? r] ?; unlink.
        destruct r as [[ys|f]|e]; try (split; auto; fail).
        eapply both_bind; [apply Hc; eassumption|]. intros [? ra] [? r2] ?; unlink. destruct r2 as [[]|e]; split; auto.
      + intros [? [? ?]] [? [? ?]] ?; unlink. match goal with H : (_, _) = (_, _) |- _ => injection H as <- <- end. split; auto.
  Qed.

  Lemma related_consumers_of : forall (consume1 : T -> S1 -> outcome (S1 * res unit E)) consume2 (close1 : F -> S1 -> outcome (S1 * res unit E)) close2
      flush1 flush2 expose1 expose2 write1 write2 slots1 slots2,
    (forall x s1 s2, R s1 s2 -> both (linked R) (consume1 x s1) (consume2 x s2)) ->
    (forall f s1 s2, R s1 s2 -> both (linked R) (close1 f s1) (close2 f s2)) ->
    (forall s1 s2, R s1 s2 -> both (linked R) (flush1 s1) (flush2 s2)) ->
    (forall s1 s2, R s1 s2 -> both (linked R) (expose1 s1) (expose2 s2)) ->
    (forall ys s1 s2, R s1 s2 -> R (write1 ys s1) (write2 ys s2)) ->
    (forall n s1 s2, R s1 s2 -> both (linked R) (slots1 n s1) (slots2 n s2)) ->
    related_consumers R (bulk_consumer_of consume1 close1 flush1 expose1 write1 slots1) (bulk_consumer_of consume2 close2 flush2 expose2 write2 slots2).
  Proof.
    intros c1 c2 d1 d2 f1 f2 e1 e2 w1 w2 l1 l2 Hc Hd Hf He Hw Hl o s1 s2 H. destruct o; cbn -[default_bulk_consume].
    - eapply both_bind; [exact (Hc _ _ _ H)|]. intros [? ?] [? ?] ?; unlink. split; auto.
    - eapply both_bind; [exact (Hd _ _ _ H)|]. intros [? ?] [? ?] ?; unlink. split; auto.
    - eapply both_bind; [exact (Hf _ _ H)|]. intros [? ?] [? ?] ?; unlink. split; auto.
    - eapply both_bind; [exact (He _ _ H)|]. intros [? ?] [? ?] ?; unlink. split; auto.
    - split; cbn; auto.
    - eapply both_bind; [exact (Hl n _ _ H)|]. intros [? ?] [? ?] ?; unlink. split; auto.
    - eapply both_bind with (Q := linked R).
      + unfold default_bulk_consume. eapply both_bind; [exact (He _ _ H)|]. intros [? ra] [? r] ?; unlink.
        destruct r as [k|e]; try (split; auto; fail).
        eapply both_bind; [apply Hl, Hw; eassumption|]. intros [? ra] [? r2] ?; unlink. destruct r2 as [[]|e]; split; auto.
      + intros [? ?] [? ?] ?; unlink. split; auto.
  Qed.
End Intro.

(** ** Adaptors over related objects are related *)
Section Adaptors.
  Context {S1 S2 T F E : Type} (R : S1 -> S2 -> Prop).

  Definition lim_rel (a : limit S1) (b : limit S2) : Prop := R (lim_inner a) (lim_inner b) /\ lim_remaining a = lim_remaining b.
  Definition wf_rel {G} (a : with_fun S1 G) (b : with_fun S2 G) : Prop := R (wf_inner a) (wf_inner b) /\ wf_fun a = wf_fun b.
  Definition inv_rel (a : invariant S1) (b : invariant S2) : Prop := R (inv_inner a) (inv_inner b) /\ inv_active a = inv_active b /\ inv_exposed a = inv_exposed b.
  Definition ps_rel (a : pscr S1 T F E) (b : pscr S2 T F E) : Prop :=
    R (ps_inner a) (ps_inner b) /\ ps_buffer a = ps_buffer b /\ ps_last a = ps_last b /\ ps_operations a = ps_operations b /\ ps_index a = ps_index b.
  Definition cs_rel (a : cscr S1 T) (b : cscr S2 T) : Prop :=
    R (cs_inner a) (cs_inner b) /\ cs_buffer a = cs_buffer b /\ cs_operations a = cs_operations b /\ cs_index a = cs_index b.

  Ltac fin := repeat first [assumption | reflexivity | split].

  Section P.
    Variables (P1 : bulk_producer S1 T F E) (P2 : bulk_producer S2 T F E).
    Hypothesis HP : related_producers R P1 P2.

    Lemma limit_producer_related : related_producers lim_rel (limit_producer P1) (limit_producer P2).
    Proof.
      apply related_producers_of; [intros [i1 r] [i2 r'] [H ?]|intros [i1 r] [i2 r'] [H ?]|intros [i1 r] [i2 r'] [H ?]|intros n [i1 r] [i2 r'] [H ?]]; cbn in *; subst;
        unfold limit_produce, limit_slurp, limit_expose, limit_consider; cbn [lim_inner lim_remaining]; par; fin.
    Qed.

    Lemma map_final_producer_related : forall B, related_producers wf_rel (map_final_producer (B := B) P1) (map_final_producer P2).
    Proof.
      intros B.
      apply related_producers_of; [intros [i1 r] [i2 r'] [H ?]|intros [i1 r] [i2 r'] [H ?]|intros [i1 r] [i2 r'] [H ?]|intros n [i1 r] [i2 r'] [H ?]]; cbn in *; subst;
        unfold map_final_produce, map_final_slurp, map_final_expose, map_final_consider, map_final_result; cbn [wf_inner wf_fun]; par; fin.
    Qed.

    Lemma map_error_producer_related : forall B, related_producers wf_rel (map_error_producer (B := B) P1) (map_error_producer P2).
    Proof.
      intros B.
      apply related_producers_of; [intros [i1 r] [i2 r'] [H ?]|intros [i1 r] [i2 r'] [H ?]|intros [i1 r] [i2 r'] [H ?]|intros n [i1 r] [i2 r'] [H ?]]; cbn in *; subst;
        unfold map_error_call; cbn [wf_inner wf_fun]; par; fin.
    Qed.

    Lemma invariant_producer_related : related_producers inv_rel (invariant_producer P1) (invariant_producer P2).
    Proof.
      apply related_producers_of; [intros [i1 r k] [i2 r' k'] [H [? ?]]|intros [i1 r k] [i2 r' k'] [H [? ?]]|intros [i1 r k] [i2 r' k'] [H [? ?]]|intros n [i1 r k] [i2 r' k'] [H [? ?]]];
        cbn in *; subst; unfold invariant_produce, invariant_slurp, invariant_expose, invariant_consider, inv_check; cbn [inv_inner inv_active inv_exposed]; par; fin.
    Qed.

    Lemma ps_advance_related : forall s1 s2, ps_rel s1 s2 -> both ps_rel (pscr_advance s1) (pscr_advance s2).
    Proof. intros [i1 b l ops idx] [i2 b2 l2 ops2 idx2] (H & ? & ? & ? & ?). cbn in *. subst. unfold pscr_advance. cbn -[Nat.modulo cmod]. par. fin. Qed.

    Lemma ps_perform_related : forall dbg s1 s2, ps_rel s1 s2 -> both (linked ps_rel) (pscr_perform_operation dbg P1 s1) (pscr_perform_operation dbg P2 s2).
    Proof.
      intros dbg [i1 b l ops idx] [i2 b2 l2 ops2 idx2] (H & ? & ? & ? & ?). cbn in *. subst.
      unfold pscr_perform_operation, ps_with_inner, ps_with_buffer, ps_len. par; fin;
        try (eapply both_bind; [apply ps_advance_related; fin|intros t1 t2 Ht; split; [exact Ht|reflexivity]]).
    Qed.

    Lemma ps_fill_loop_related : forall dbg fuel s1 s2, ps_rel s1 s2 -> both ps_rel (pscr_fill_loop dbg fuel P1 s1) (pscr_fill_loop dbg fuel P2 s2).
    Proof.
      induction fuel as [|fuel IH]; intros s1 s2 Hs; cbn [pscr_fill_loop]; [exact Logic.I|].
      pose proof Hs as (H & H1 & H2 & H3 & H4). unfold ps_len. rewrite H1, H2. destruct (ps_last s2) eqn:El; [exact Hs|].
      match goal with |- context [if ?c then _ else _] => destruct c end; [|exact Hs].
      eapply both_bind; [apply ps_perform_related, Hs|]. intros [t1 ra] [t2 r] [Ht ?]; cbn [fst snd] in *; subst.
      destruct r as [[f|]|e]; apply IH; auto; destruct Ht as (A1 & A2 & A3 & A4 & A5); fin.
    Qed.

    Lemma ps_fill_queue_related : forall dbg fuel s1 s2, ps_rel s1 s2 -> both (linked ps_rel) (pscr_fill_queue dbg fuel P1 s1) (pscr_fill_queue dbg fuel P2 s2).
    Proof.
      intros dbg fuel s1 s2 Hs. unfold pscr_fill_queue. eapply both_bind; [apply ps_fill_loop_related, Hs|].
      intros [i1 b l ops idx] [i2 b2 l2 ops2 idx2] (H & ? & ? & ? & ?). cbn in H, H0, H1, H2, H3. subst. unfold ps_len. cbn [ps_buffer].
      match goal with |- context [if ?c then _ else _] => destruct c end; fin.
    Qed.

    Lemma pscr_producer_related : forall dbg fuel, related_producers ps_rel (pscr_producer dbg fuel P1) (pscr_producer dbg fuel P2).
    Proof.
      intros dbg fuel. apply related_producers_of.
      - intros s1 s2 Hs. unfold pscr_produce. eapply both_bind; [apply ps_fill_queue_related, Hs|].
        intros [[i1 b l ops idx] r] [[i2 b2 l2 ops2 idx2] r2] [(H & ? & ? & ? & ?) ?]; cbn in *; subst. par; fin.
      - intros s1 s2 Hs. unfold pscr_slurp. eapply both_bind; [apply ps_fill_queue_related, Hs|].
        intros [[i1 b l ops idx] r] [[i2 b2 l2 ops2 idx2] r2] [(H & ? & ? & ? & ?) ?]; cbn in H, H0, H1, H2, H3, H4; subst.
        unfold pscr_slurp_inner, ps_with_last, ps_with_inner, ps_len. cbn [ps_inner ps_buffer ps_last ps_operations ps_index]. par; fin.
      - intros s1 s2 Hs. unfold pscr_expose. eapply both_bind; [apply ps_fill_queue_related, Hs|].
        intros [[i1 b l ops idx] r] [[i2 b2 l2 ops2 idx2] r2] [(H & ? & ? & ? & ?) ?]; cbn in *; subst. par; fin.
      - intros n [i1 b l ops idx] [i2 b2 l2 ops2 idx2] (H & ? & ? & ? & ?); cbn in *; subst. unfold pscr_consider. cbn [ps_buffer]. par; fin.
    Qed.
  End P.

  Section C.
    Variables (C1 : bulk_consumer S1 T F E) (C2 : bulk_consumer S2 T F E).
    Hypothesis HC : related_consumers R C1 C2.

    Lemma limit_consumer_related : related_consumers lim_rel (limit_consumer C1) (limit_consumer C2).
    Proof.
      apply related_consumers_of; [intros x [i1 r] [i2 r'] [H ?]|intros f [i1 r] [i2 r'] [H ?]|intros [i1 r] [i2 r'] [H ?]|intros [i1 r] [i2 r'] [H ?]
        |intros ys [i1 r] [i2 r'] [H ?]|intros n [i1 r] [i2 r'] [H ?]]; cbn in *; subst;
        unfold limit_consume, limit_close, limit_flush, limit_expose_slots, limit_write, limit_consume_slots; cbn [lim_inner lim_remaining]; par; fin.
      now apply (rel_write HC).
    Qed.

    Lemma map_final_consumer_related : forall B, related_consumers wf_rel (map_final_consumer (B := B) C1) (map_final_consumer C2).
    Proof.
      intros B.
      apply related_consumers_of; [intros x [i1 r] [i2 r'] [H ?]|intros f [i1 r] [i2 r'] [H ?]|intros [i1 r] [i2 r'] [H ?]|intros [i1 r] [i2 r'] [H ?]
        |intros ys [i1 r] [i2 r'] [H ?]|intros n [i1 r] [i2 r'] [H ?]]; cbn in *; subst;
        unfold map_final_consume, map_final_close, map_final_flush, map_final_expose_slots, map_final_write, map_final_consume_slots; cbn [wf_inner wf_fun]; par; fin.
      now apply (rel_write HC).
    Qed.

    Lemma map_error_consumer_related : forall B, related_consumers wf_rel (map_error_consumer (B := B) C1) (map_error_consumer C2).
    Proof.
      intros B.
      apply related_consumers_of; [intros x [i1 r] [i2 r'] [H ?]|intros f [i1 r] [i2 r'] [H ?]|intros [i1 r] [i2 r'] [H ?]|intros [i1 r] [i2 r'] [H ?]
        |intros ys [i1 r] [i2 r'] [H ?]|intros n [i1 r] [i2 r'] [H ?]]; cbn in *; subst;
        unfold map_error_call; cbn [wf_inner wf_fun]; par; fin.
      now apply (rel_write HC).
    Qed.

    Lemma invariant_consumer_related : related_consumers inv_rel (invariant_consumer C1) (invariant_consumer C2).
    Proof.
      apply related_consumers_of; [intros x [i1 r k] [i2 r' k'] [H [? ?]]|intros f [i1 r k] [i2 r' k'] [H [? ?]]|intros [i1 r k] [i2 r' k'] [H [? ?]]
        |intros [i1 r k] [i2 r' k'] [H [? ?]]|intros ys [i1 r k] [i2 r' k'] [H [? ?]]|intros n [i1 r k] [i2 r' k'] [H [? ?]]]; cbn in *; subst;
        unfold invariant_consume, invariant_close, invariant_flush, invariant_expose_slots, invariant_write, invariant_consume_slots, inv_check;
        cbn [inv_inner inv_active inv_exposed]; par; fin.
      now apply (rel_write HC).
    Qed.

    Lemma cs_advance_related : forall s1 s2, cs_rel s1 s2 -> both cs_rel (cscr_advance s1) (cscr_advance s2).
    Proof. intros [i1 b ops idx] [i2 b2 ops2 idx2] (H & ? & ? & ?). cbn in *. subst. unfold cscr_advance. par. fin. Qed.

    Lemma cs_perform_related : forall dbg x0 s1 s2, cs_rel s1 s2 -> both (linked cs_rel) (cscr_perform_operation dbg x0 C1 s1) (cscr_perform_operation dbg x0 C2 s2).
    Proof.
      intros dbg x0 [i1 b ops idx] [i2 b2 ops2 idx2] (H & ? & ? & ?). cbn in *. subst.
      unfold cscr_perform_operation, cs_with_inner, cs_with_buffer, cs_len.
      cbn [cs_inner cs_buffer cs_operations cs_index]. apply both_assert. apply both_same. intros op.
      eapply both_bind with (Q := linked cs_rel).
      - par; fin.
      - intros [[j1 b3 o1 k1] r] [[j2 b4 o2 k2] r2] [(H1 & ? & ? & ?) ?]; cbn in *; subst. par; fin.
        eapply both_bind; [apply cs_advance_related; fin|intros t1 t2 Ht; split; [exact Ht|reflexivity]].
    Qed.

    Lemma cs_drain_related : forall dbg x0 fuel s1 s2, cs_rel s1 s2 -> both (linked cs_rel) (cscr_drain dbg x0 fuel C1 s1) (cscr_drain dbg x0 fuel C2 s2).
    Proof.
      induction fuel as [|fuel IH]; intros s1 s2 Hs; cbn [cscr_drain]; [exact Logic.I|].
      pose proof Hs as (H & H1 & H2 & H3). unfold cs_len. rewrite H1.
      match goal with |- context [if ?c then _ else _] => destruct c end; [|fin].
      eapply both_bind; [apply cs_perform_related, Hs|]. intros [t1 ra] [t2 r] [Ht ?]; cbn [fst snd] in *; subst.
      destruct r as [[]|e]; [now apply IH|fin; apply Ht].
    Qed.

    Lemma cscr_consumer_related : forall dbg x0 fuel, related_consumers cs_rel (cscr_consumer dbg x0 fuel C1) (cscr_consumer dbg x0 fuel C2).
    Proof.
      intros dbg x0 fuel. apply related_consumers_of.
      - intros x [i1 b ops idx] [i2 b2 ops2 idx2] (H & ? & ? & ?). cbn in *; subst. unfold cscr_consume, cs_with_buffer. cbn [cs_inner cs_buffer cs_operations cs_index].
        apply both_same. intros [b1 [y|]]; [|fin]. eapply both_bind; [apply cs_drain_related; fin|].
        intros [[j1 b3 o1 k1] r] [[j2 b4 o2 k2] r2] [(H1 & ? & ? & ?) ?]; cbn in *; subst. par; fin.
      - intros f s1 s2 Hs. unfold cscr_close. eapply both_bind; [apply cs_drain_related, Hs|].
        intros [[j1 b3 o1 k1] r] [[j2 b4 o2 k2] r2] [(H1 & ? & ? & ?) ?]; cbn in *; subst. par; fin.
      - intros s1 s2 Hs. unfold cscr_flush. eapply both_bind; [apply cs_drain_related, Hs|].
        intros [[j1 b3 o1 k1] r] [[j2 b4 o2 k2] r2] [(H1 & ? & ? & ?) ?]; cbn in *; subst. par; fin.
      - intros [i1 b ops idx] [i2 b2 ops2 idx2] (H & ? & ? & ?). cbn in *; subst. unfold cscr_expose, cs_len, cs_with_buffer. cbn [cs_inner cs_buffer cs_operations cs_index].
        match goal with |- context [if ?c then _ else _] => destruct c end; [par; fin|].
        eapply both_bind; [apply cs_drain_related; fin|].
        intros [[j1 b3 o1 k1] r] [[j2 b4 o2 k2] r2] [(H1 & ? & ? & ?) ?]; cbn in *; subst. par; fin.
      - intros ys [i1 b ops idx] [i2 b2 ops2 idx2] (H & ? & ? & ?). cbn in *; subst. fin.
      - intros n [i1 b ops idx] [i2 b2 ops2 idx2] (H & ? & ? & ?). cbn in *; subst. unfold cscr_consume_slots. cbn [cs_buffer]. par; fin.
    Qed.
  End C.
End Adaptors.

(** ** Guarded objects that are alike are related *)
Notation nf := (fun X : Type => @NoFuel X).

Section Guarded.
  Context {S1 S2 T F E : Type}.

  Definition gp_rel (P1 : bulk_producer S1 T F E) (P2 : bulk_producer S2 T F E) (a : S1 * pmon) (b : S2 * pmon) : Prop :=
    snd a = snd b /\ alike (@p_may T) (@p_saw T F E) (p_do P1) (p_do P2) (snd a) (fst a) (fst b).
  Definition gc_rel (C1 : bulk_consumer S1 T F E) (C2 : bulk_consumer S2 T F E) (a : S1 * cmon) (b : S2 * cmon) : Prop :=
    snd a = snd b /\ alike (@c_may T F) (@c_saw T F E) (c_do C1) (c_do C2) (snd a) (fst a) (fst b).
End Guarded.

Lemma guard_p_do_eq : forall S T F E (P : bulk_producer S T F E) o s m,
  p_do (guard_producer nf P) o (s, m) = if p_may m o then let* (s', a) := p_do P o s in Ret ((s', p_saw m o a), a) else NoFuel.
Proof.
  intros S T F E P o s m. destruct o; cbn -[p_may p_saw]; unfold guarded; destruct (p_may m _); try reflexivity.
  - destruct (p_produce P s) as [[? ?]| |]; reflexivity.
  - destruct (p_slurp P s) as [[? ?]| |]; reflexivity.
  - destruct (p_expose P s) as [[? ?]| |]; reflexivity.
  - destruct (p_consider P n s) as [[? ?]| |]; reflexivity.
  - destruct (p_bulk_produce P buf s) as [[? [? ?]]| |]; reflexivity.
Qed.

Lemma guard_c_do_eq : forall S T F E (C : bulk_consumer S T F E) o s m,
  c_do (guard_consumer nf C) o (s, m) =
  if match o with CWrite _ => true | _ => c_may m o end then let* (s', a) := c_do C o s in Ret ((s', c_saw m o a), a) else NoFuel.
Proof.
  intros S T F E C o s m. destruct o; cbn -[c_may c_saw]; unfold guarded; try destruct (c_may m _); try reflexivity.
  - destruct (c_consume C x s) as [[? ?]| |]; reflexivity.
  - destruct (c_close C f s) as [[? ?]| |]; reflexivity.
  - destruct (c_flush C s) as [[? ?]| |]; reflexivity.
  - destruct (c_expose C s) as [[? ?]| |]; reflexivity.
  - destruct (c_consume_slots C n s) as [[? ?]| |]; reflexivity.
  - destruct (c_bulk_consume C buf s) as [[? ?]| |]; reflexivity.
Qed.

Section Guarded2.
  Context {S1 S2 T F E : Type}.

  Lemma guard_producers_related : forall (P1 : bulk_producer S1 T F E) (P2 : bulk_producer S2 T F E),
    related_producers (gp_rel P1 P2) (guard_producer nf P1) (guard_producer nf P2).
  Proof.
    intros P1 P2 o [s1 m] [s2 m'] [Hm H]. cbn [fst snd] in *. subst m'. rewrite !guard_p_do_eq. destruct (p_may m o) eqn:Ho; [|exact Logic.I].
    eapply both_bind; [exact (@alike_step _ _ _ _ _ _ _ _ _ _ _ _ o H Ho)|]. intros [s1' a] [s2' a'] [Ha H']. cbn -[p_saw c_saw] in *. subst a'. split; [|reflexivity]. split; [reflexivity|exact H'].
  Qed.

  Lemma over_alike : forall (C1 : bulk_consumer S1 T F E) (C2 : bulk_consumer S2 T F E) m s1 s2, cm_over m = true ->
    alike (@c_may T F) (@c_saw T F E) (c_do C1) (c_do C2) m s1 s2.
  Proof. intros C1 C2 m s1 s2 H [|o ops]; cbn; [reflexivity|]. unfold c_may. rewrite H. reflexivity. Qed.

  Lemma guard_consumers_related : forall (C1 : bulk_consumer S1 T F E) (C2 : bulk_consumer S2 T F E),
    related_consumers (gc_rel C1 C2) (guard_consumer nf C1) (guard_consumer nf C2).
  Proof.
    intros C1 C2 o [s1 m] [s2 m'] [Hm H]. cbn [fst snd] in *. subst m'. rewrite !guard_c_do_eq. destruct (c_may m o) eqn:Ho.
    - replace (match o with CWrite _ => true | _ => true end) with true by now destruct o.
      eapply both_bind; [exact (@alike_step _ _ _ _ _ _ _ _ _ _ _ _ o H Ho)|]. intros [s1' a] [s2' a'] [Ha H']. cbn -[p_saw c_saw] in *. subst a'. split; [|reflexivity]. split; [reflexivity|exact H'].
    - destruct o; try exact Logic.I. cbn -[c_saw]. split; [|reflexivity]. split; [reflexivity|]. cbn [fst snd]. apply over_alike.
      unfold c_may in Ho. cbn in *. destruct (cm_over m); [reflexivity|discriminate].
  Qed.
End Guarded2.

(** Seen through guards. *)
Lemma alike_through : forall M A S1 S1' S2 S2' (f1 : S1' -> S1) (f2 : S2' -> S2) Q1 Q2
  (g1 : outcome (S1' * M * list A)) (o1 : outcome (S1 * M * list A)) (g2 : outcome (S2' * M * list A)) (o2 : outcome (S2 * M * list A)),
  kept (seen f1) Q1 g1 o1 -> kept (seen f2) Q2 g2 o2 -> omap snd g1 = omap snd g2 -> omap snd o1 = omap snd o2.
Proof. intros M A S1 S1' S2 S2' f1 f2 Q1 Q2 g1 o1 g2 o2 [<- _] [<- _] H. destruct g1 as [x| |], g2 as [y| |]; cbn in *; congruence. Qed.

(** ** Slurping *)

Definition mute {S T F E} (P : bulk_producer S T F E) : bulk_producer S T F E :=
  mk_bulk_producer (mk_buffered_producer P (fun _ => NoFuel)) (p_expose P) (p_consider P) (p_bulk_produce P).

Section Slurps.
  Context {S1 S2 T F E : Type}.

  Lemma alike_p_true : forall (P1 : bulk_producer S1 T F E) (P2 : bulk_producer S2 T F E) m s1 s2,
    alike (p_calls true) (@p_saw T F E) (p_do P1) (p_do P2) m s1 s2 <-> alike (@p_may T) (@p_saw T F E) (p_do P1) (p_do P2) m s1 s2.
  Proof.
    intros. split; intros H; apply (@alike_mono _ _ _ _ _ _ _ _ _ _ eq) with (2 := eq_refl) (3 := H); intros m0 ? o <- Ho; (split; [|reflexivity]); unfold p_calls in *.
    - rewrite Ho. now destruct o.
    - now apply andb_true_iff in Ho.
  Qed.

  Lemma alike_p_false : forall sl (P1 : bulk_producer S1 T F E) (P2 : bulk_producer S2 T F E) m s1 s2,
    alike (p_calls sl) (@p_saw T F E) (p_do P1) (p_do P2) m s1 s2 -> alike (p_calls false) (@p_saw T F E) (p_do P1) (p_do P2) m s1 s2.
  Proof.
    intros sl P1 P2 m s1 s2 H; apply (@alike_mono _ _ _ _ _ _ _ _ _ _ eq) with (2 := eq_refl) (3 := H); intros m0 ? o <- Ho; (split; [|reflexivity]); unfold p_calls in *.
    apply andb_true_iff in Ho. destruct Ho as [Ho Ho']. rewrite Ho. now destruct o.
  Qed.

  Lemma mute_do : forall S (P : bulk_producer S T F E) o s, o <> PSlurp -> p_do (mute P) o s = p_do P o s.
  Proof. intros S P [| | | |] s H; try reflexivity. congruence. Qed.

  (** Callers that do not slurp do not notice. *)
  Lemma mute_alike : forall S (P : bulk_producer S T F E) m s, alike (p_calls false) (@p_saw T F E) (p_do (mute P)) (p_do P) m s s.
  Proof.
    intros S P m s. apply alike_same with (good := fun _ => True); [|exact Logic.I]. intros m0 o s0 _ Ho. split; [|auto]. apply mute_do. intros ->.
    unfold p_calls in Ho. rewrite andb_false_r in Ho. discriminate.
  Qed.

  Lemma alike_mute : forall (P1 : bulk_producer S1 T F E) (P2 : bulk_producer S2 T F E) m s1 s2,
    alike (p_calls false) (@p_saw T F E) (p_do P1) (p_do P2) m s1 s2 -> alike (p_calls true) (@p_saw T F E) (p_do (mute P1)) (p_do (mute P2)) m s1 s2.
  Proof.
    intros P1 P2 m s1 s2 H. apply alike_intro with (R := fun m => alike (p_calls false) (@p_saw T F E) (p_do P1) (p_do P2) m); [|exact H].
    clear m s1 s2 H. intros m s1 s2 o H Ho. destruct (match o with PSlurp => true | _ => false end) eqn:El; [now destruct o|].
    rewrite !mute_do by (intros ->; discriminate). apply (@alike_step _ _ _ _ _ _ _ _ _ _ _ _ o H).
    unfold p_calls in *. destruct o; try discriminate; exact Ho.
  Qed.
End Slurps.

(** Going from [true] to any [sl], for an adaptor whose methods use the method of the same name only. *)
Lemma lift_slurps : forall S1 S2 X1 X2 T F E G B
    (A1 : bulk_producer S1 T F E -> bulk_producer X1 T G B) (A2 : bulk_producer S2 T F E -> bulk_producer X2 T G B) (x1 : X1) (x2 : X2) s1 s2,
  (forall P1 P2, alike (@p_may T) (@p_saw T F E) (p_do P1) (p_do P2) pmon_new s1 s2 ->
     alike (@p_may T) (@p_saw T G B) (p_do (A1 P1)) (p_do (A2 P2)) pmon_new x1 x2) ->
  (forall P o x, o <> PSlurp -> p_do (A1 (mute P)) o x = p_do (A1 P) o x) ->
  (forall P o x, o <> PSlurp -> p_do (A2 (mute P)) o x = p_do (A2 P) o x) ->
  forall sl P1 P2, alike_producer sl P1 P2 s1 s2 -> alike_producer sl (A1 P1) (A2 P2) x1 x2.
Proof.
  intros S1 S2 X1 X2 T F E G B A1 A2 x1 x2 s1 s2 HA M1 M2 [|] P1 P2 H.
  - apply alike_p_true, HA, alike_p_true, H.
  - apply alike_mute, alike_p_true in H. apply HA, alike_p_true in H. apply alike_p_false in H.
    assert (HM : forall X (A A' : bulk_producer X T G B) x, (forall o x, o <> PSlurp -> p_do A o x = p_do A' o x) -> alike_producer false A A' x x).
    { intros X A A' x HAA. apply alike_same with (good := fun _ => True); [|exact Logic.I]. intros m0 o s0 _ Ho. split; [|auto]. apply HAA. intros ->.
      unfold p_calls in Ho. rewrite andb_false_r in Ho. discriminate. }
    eapply alike_trans; [apply alike_sym, HM, M1|]. eapply alike_trans; [exact H|apply HM, M2].
Qed.

(** ** Adaptors over objects that are alike *)
Section Congruence.
  Context {S1 S2 T F E : Type}.

  Ltac by_slurps := intros P0 o x Ho; destruct o; try reflexivity; congruence.

  Lemma limit_producer_alike : forall sl (P1 : bulk_producer S1 T F E) (P2 : bulk_producer S2 T F E) s1 s2 n, alike_producer sl P1 P2 s1 s2 ->
    alike_producer sl (limit_producer P1) (limit_producer P2) (limit_new s1 n) (limit_new s2 n).
  Proof.
    intros sl P1 P2 s1 s2 n. apply (lift_slurps (@limit_producer S1 T F E) (@limit_producer S2 T F E)); [clear sl P1 P2; intros P1 P2 H|by_slurps..].
    intros ops. eapply alike_through.
    - apply (@limit_producer_kept nf _ _ _ _ P1 ops (limit_new (s1, pmon_new) n)). right. auto.
    - apply (@limit_producer_kept nf _ _ _ _ P2 ops (limit_new (s2, pmon_new) n)). right. auto.
    - apply (related_producers_alike (limit_producer_related (@guard_producers_related _ _ _ _ _ P1 P2))). repeat split. exact H.
  Qed.

  Lemma map_final_producer_alike : forall B sl (P1 : bulk_producer S1 T F E) (P2 : bulk_producer S2 T F E) s1 s2 (g : F -> B), alike_producer sl P1 P2 s1 s2 ->
    alike_producer sl (map_final_producer P1) (map_final_producer P2) (with_fun_new s1 g) (with_fun_new s2 g).
  Proof.
    intros B sl P1 P2 s1 s2 g.
    apply (lift_slurps (@map_final_producer S1 T F B E) (@map_final_producer S2 T F B E)); [clear sl P1 P2; intros P1 P2 H|by_slurps..].
    intros ops. eapply alike_through.
    - apply (@map_final_producer_kept nf _ _ _ _ P1 _ ops (with_fun_new (s1, pmon_new) g)). right. auto.
    - apply (@map_final_producer_kept nf _ _ _ _ P2 _ ops (with_fun_new (s2, pmon_new) g)). right. auto.
    - apply (related_producers_alike (map_final_producer_related (@guard_producers_related _ _ _ _ _ P1 P2) (B := B))). repeat split. exact H.
  Qed.

  Lemma map_error_producer_alike : forall B sl (P1 : bulk_producer S1 T F E) (P2 : bulk_producer S2 T F E) s1 s2 (g : E -> B), alike_producer sl P1 P2 s1 s2 ->
    alike_producer sl (map_error_producer P1) (map_error_producer P2) (with_fun_new s1 g) (with_fun_new s2 g).
  Proof.
    intros B sl P1 P2 s1 s2 g.
    apply (lift_slurps (@map_error_producer S1 T F E B) (@map_error_producer S2 T F E B)); [clear sl P1 P2; intros P1 P2 H|by_slurps..].
    intros ops. eapply alike_through.
    - apply (@map_error_producer_kept nf _ _ _ _ _ P1 ops (with_fun_new (s1, pmon_new) g)). right. auto.
    - apply (@map_error_producer_kept nf _ _ _ _ _ P2 ops (with_fun_new (s2, pmon_new) g)). right. auto.
    - apply (related_producers_alike (map_error_producer_related (@guard_producers_related _ _ _ _ _ P1 P2) (B := B))). repeat split. exact H.
  Qed.

  Lemma invariant_producer_alike : forall sl (P1 : bulk_producer S1 T F E) (P2 : bulk_producer S2 T F E) s1 s2, alike_producer sl P1 P2 s1 s2 ->
    alike_producer sl (invariant_producer P1) (invariant_producer P2) (invariant_new s1) (invariant_new s2).
  Proof.
    intros sl P1 P2 s1 s2. apply (lift_slurps (@invariant_producer S1 T F E) (@invariant_producer S2 T F E)); [clear sl P1 P2; intros P1 P2 H|by_slurps..].
    intros ops. eapply alike_through.
    - apply (@invariant_producer_kept nf _ _ _ _ P1 ops (invariant_new (s1, pmon_new))). right. auto.
    - apply (@invariant_producer_kept nf _ _ _ _ P2 ops (invariant_new (s2, pmon_new))). right. auto.
    - apply (related_producers_alike (invariant_producer_related (@guard_producers_related _ _ _ _ _ P1 P2))). repeat split. exact H.
  Qed.

  Lemma limit_consumer_alike : forall (C1 : bulk_consumer S1 T F E) (C2 : bulk_consumer S2 T F E) s1 s2 n, alike_consumer C1 C2 s1 s2 ->
    alike_consumer (limit_consumer C1) (limit_consumer C2) (limit_new s1 n) (limit_new s2 n).
  Proof.
    intros C1 C2 s1 s2 n H ops. eapply alike_through.
    - apply (@limit_consumer_kept nf _ _ _ _ C1 ops (limit_new (s1, cmon_new) n)). right. auto.
    - apply (@limit_consumer_kept nf _ _ _ _ C2 ops (limit_new (s2, cmon_new) n)). right. auto.
    - apply (related_consumers_alike (limit_consumer_related (@guard_consumers_related _ _ _ _ _ C1 C2))). repeat split. exact H.
  Qed.

  Lemma map_final_consumer_alike : forall B (C1 : bulk_consumer S1 T F E) (C2 : bulk_consumer S2 T F E) s1 s2 (g : B -> F), alike_consumer C1 C2 s1 s2 ->
    alike_consumer (map_final_consumer C1) (map_final_consumer C2) (with_fun_new s1 g) (with_fun_new s2 g).
  Proof.
    intros B C1 C2 s1 s2 g H ops. eapply alike_through.
    - apply (@map_final_consumer_kept nf _ _ _ _ C1 _ ops (with_fun_new (s1, cmon_new) g)). right. auto.
    - apply (@map_final_consumer_kept nf _ _ _ _ C2 _ ops (with_fun_new (s2, cmon_new) g)). right. auto.
    - apply (related_consumers_alike (map_final_consumer_related (@guard_consumers_related _ _ _ _ _ C1 C2) (B := B))). repeat split. exact H.
  Qed.

  Lemma map_error_consumer_alike : forall B (C1 : bulk_consumer S1 T F E) (C2 : bulk_consumer S2 T F E) s1 s2 (g : E -> B), alike_consumer C1 C2 s1 s2 ->
    alike_consumer (map_error_consumer C1) (map_error_consumer C2) (with_fun_new s1 g) (with_fun_new s2 g).
  Proof.
    intros B C1 C2 s1 s2 g H ops. eapply alike_through.
    - apply (@map_error_consumer_kept nf _ _ _ _ _ C1 ops (with_fun_new (s1, cmon_new) g)). right. auto.
    - apply (@map_error_consumer_kept nf _ _ _ _ _ C2 ops (with_fun_new (s2, cmon_new) g)). right. auto.
    - apply (related_consumers_alike (map_error_consumer_related (@guard_consumers_related _ _ _ _ _ C1 C2) (B := B))). repeat split. exact H.
  Qed.

  Lemma invariant_consumer_alike : forall (C1 : bulk_consumer S1 T F E) (C2 : bulk_consumer S2 T F E) s1 s2, alike_consumer C1 C2 s1 s2 ->
    alike_consumer (invariant_consumer C1) (invariant_consumer C2) (invariant_new s1) (invariant_new s2).
  Proof.
    intros C1 C2 s1 s2 H ops. eapply alike_through.
    - apply (@invariant_consumer_kept nf _ _ _ _ C1 ops (invariant_new (s1, cmon_new))). right. auto.
    - apply (@invariant_consumer_kept nf _ _ _ _ C2 ops (invariant_new (s2, cmon_new))). right. auto.
    - apply (related_consumers_alike (invariant_consumer_related (@guard_consumers_related _ _ _ _ _ C1 C2))). repeat split. exact H.
  Qed.

  Lemma cscr_consumer_alike : forall dbg x0 fuel (C1 : bulk_consumer S1 T F E) (C2 : bulk_consumer S2 T F E) s1 s2 pat cap, alike_consumer C1 C2 s1 s2 ->
    alike_consumer (cscr_consumer dbg x0 fuel C1) (cscr_consumer dbg x0 fuel C2) (cscr_new_with_capacity x0 s1 pat cap) (cscr_new_with_capacity x0 s2 pat cap).
  Proof.
    intros dbg x0 fuel C1 C2 s1 s2 pat cap H ops. eapply alike_through.
    - apply (@cscr_consumer_kept nf _ _ _ _ dbg x0 C1 fuel ops (cscr_new_with_capacity x0 (s1, cmon_new) pat cap)). intros _. reflexivity.
    - apply (@cscr_consumer_kept nf _ _ _ _ dbg x0 C2 fuel ops (cscr_new_with_capacity x0 (s2, cmon_new) pat cap)). intros _. reflexivity.
    - apply (related_consumers_alike (cscr_consumer_related (@guard_consumers_related _ _ _ _ _ C1 C2) dbg x0 fuel)). repeat split. exact H.
  Qed.
End Congruence.

(** ** The producer scrambler *)

(** Lists of calls without [slurp] suffice if [slurp] is not called. *)
Fixpoint unslurped {T} (ops : list (pop T)) : list (pop T) :=
  match ops with
  | [] => []
  | PSlurp :: _ => []
  | o :: ops => o :: unslurped ops
  end.
Lemma unslurped_in : forall T (ops : list (pop T)), ~ In PSlurp (unslurped ops).
Proof. induction ops as [|[| | | |] ops IH]; cbn; intros H; try (destruct H as [H|H]; [discriminate|]); auto. Qed.
Lemma unslurped_obeying : forall S T F E (P : bulk_producer S T F E) ops m s,
  omap snd (obeying (p_calls false) (@p_saw T F E) (p_do P) ops m s) = omap snd (p_obeying P (unslurped ops) m s).
Proof.
  intros S T F E P. unfold p_obeying. induction ops as [|o ops IH]; intros m s; [reflexivity|].
  assert (H : o = PSlurp \/ (unslurped (o :: ops) = o :: unslurped ops /\ p_calls false m o = p_may m o)).
  { destruct o; auto; right; (split; [reflexivity|]); unfold p_calls; apply andb_true_r. }
  destruct H as [->|[H1 H2]]; [cbn -[p_calls]; unfold p_calls; now rewrite andb_false_r|]. rewrite H1. cbn [obeying]. rewrite H2.
  destruct (p_may m o); [|reflexivity]. destruct (p_do P o s) as [[s' a]| |]; cbn [bind omap]; try reflexivity.
  specialize (IH (p_saw m o a) s').
  destruct (obeying (p_calls false) _ _ ops _ s') as [[[? ?] ?]| |], (obeying (@p_may T) _ _ (unslurped ops) _ s') as [[[? ?] ?]| |];
    cbn in *; try discriminate; congruence.
Qed.

Section ProducerScrambler.
  Context {S1 S2 T F E : Type}.

  Lemma pscr_producer_alike_true : forall dbg fuel (P1 : bulk_producer S1 T F E) (P2 : bulk_producer S2 T F E) x0 s1 s2 pat cap, alike_producer true P1 P2 s1 s2 ->
    alike_producer false (pscr_producer dbg fuel P1) (pscr_producer dbg fuel P2) (pscr_new_with_capacity x0 s1 pat cap) (pscr_new_with_capacity x0 s2 pat cap).
  Proof.
    intros dbg fuel P1 P2 x0 s1 s2 pat cap H ops. rewrite !unslurped_obeying. eapply alike_through.
    - apply (@pscr_producer_kept nf _ _ _ _ dbg P1 fuel (unslurped ops) (pscr_new_with_capacity x0 (s1, pmon_new) pat cap)); [|apply unslurped_in].
      intros _ _. reflexivity.
    - apply (@pscr_producer_kept nf _ _ _ _ dbg P2 fuel (unslurped ops) (pscr_new_with_capacity x0 (s2, pmon_new) pat cap)); [|apply unslurped_in].
      intros _ _. reflexivity.
    - apply (related_producers_alike (pscr_producer_related (@guard_producers_related _ _ _ _ _ P1 P2) dbg fuel)). repeat split. apply alike_p_true, H.
  Qed.
End ProducerScrambler.

(** Without the operation [ScSlurp], a scrambler does not slurp. *)
Section Unslurping.
  Context {S T F E : Type} (dbg : bool) (P : bulk_producer S T F E).

  Definition unslurping (s1 s2 : pscr S T F E) : Prop := s1 = s2 /\ ~ In ScSlurp (ps_operations s1).

  Lemma advance_mute : forall s, ~ In ScSlurp (ps_operations s) -> both unslurping (pscr_advance s) (pscr_advance s).
  Proof. intros [i b l ops idx] H. unfold pscr_advance. apply both_same. intros n. split; [reflexivity|exact H]. Qed.

  Lemma perform_mute : forall s, ~ In ScSlurp (ps_operations s) ->
    both (linked unslurping) (pscr_perform_operation dbg (mute P) s) (pscr_perform_operation dbg P s).
  Proof.
    intros [i b l ops idx] H. cbn [ps_operations] in H. unfold pscr_perform_operation, ps_len, ps_with_inner, ps_with_buffer.
    cbn [ps_operations ps_index ps_buffer ps_inner ps_last]. apply both_assert.
    assert (Hadv : forall j c, both (linked unslurping) (let* s := pscr_advance (mk_pscr j c l ops idx) in Ret (s, @Ok (option F) E None))
      (let* s := pscr_advance (mk_pscr j c l ops idx) in Ret (s, @Ok (option F) E None))).
    { intros j c. eapply both_bind; [apply advance_mute, H|]. intros x y Hxy. split; [exact Hxy|reflexivity]. }
    destruct (index idx ops) as [o| |] eqn:Eo; cbn [bind]; try exact Logic.I.
    assert (Ho : o <> ScSlurp).
    { intros ->. apply H. unfold index in Eo. destruct (nth_error ops idx) eqn:En; [|discriminate]. injection Eo as ->. eapply nth_error_In, En. }
    destruct o as [|n|]; [| |congruence].
    - apply both_same. intros [j [[x|f]|e]]; [|repeat split; exact H..]. apply both_same. intros [c y]. apply both_assert, Hadv.
    - apply both_same. intros [j [[ys|f]|e]]; [|repeat split; exact H..]. apply both_same. intros zs. apply both_same. intros [c k].
      apply both_same. intros [j2 [[]|e]]; [apply Hadv|repeat split; exact H].
  Qed.

  Lemma fill_loop_mute : forall fuel s, ~ In ScSlurp (ps_operations s) -> both unslurping (pscr_fill_loop dbg fuel (mute P) s) (pscr_fill_loop dbg fuel P s).
  Proof.
    induction fuel as [|fuel IH]; intros s H; cbn [pscr_fill_loop]; [exact Logic.I|]. destruct (ps_last s); [now split|].
    destruct (ps_len s <? fixed_capacity (ps_buffer s)); [|now split]. eapply both_bind; [apply perform_mute, H|].
    intros [s1 r] [s2 r'] [[H1 H2] H3]. cbn [fst snd] in *. subst. destruct r' as [[f|]|e]; apply IH; exact H2.
  Qed.

  Lemma fill_queue_mute : forall fuel s, ~ In ScSlurp (ps_operations s) -> both (linked unslurping) (pscr_fill_queue dbg fuel (mute P) s) (pscr_fill_queue dbg fuel P s).
  Proof.
    intros fuel s H. unfold pscr_fill_queue. eapply both_bind; [apply fill_loop_mute, H|]. intros s1 s2 [<- H2].
    destruct (ps_len s1 =? 0); repeat split; exact H2.
  Qed.

  Lemma pscr_mute : forall fuel s m, ~ In ScSlurp (ps_operations s) ->
    alike (p_calls false) (@p_saw T F E) (p_do (pscr_producer dbg fuel (mute P))) (p_do (pscr_producer dbg fuel P)) m s s.
  Proof.
    intros fuel s m H.
    assert (Hproduce : forall s, ~ In ScSlurp (ps_operations s) -> both (linked unslurping) (pscr_produce dbg fuel (mute P) s) (pscr_produce dbg fuel P s)).
    { clear s H. intros s H. unfold pscr_produce. eapply both_bind; [apply fill_queue_mute, H|]. intros [s1 r] [s2 r'] [[H1 H2] H3]. cbn [fst snd] in *. subst.
      destruct r' as [[f|e]|]; [repeat split; exact H2..|]. apply both_same. intros [b o]. apply both_same. intros x. repeat split; exact H2. }
    assert (Hexpose : forall s, ~ In ScSlurp (ps_operations s) -> both (linked unslurping) (pscr_expose dbg fuel (mute P) s) (pscr_expose dbg fuel P s)).
    { clear s H Hproduce. intros s H. unfold pscr_expose. eapply both_bind; [apply fill_queue_mute, H|]. intros [s1 r] [s2 r'] [[H1 H2] H3]. cbn [fst snd] in *. subst.
      destruct r' as [[f|e]|]; [repeat split; exact H2..|]. apply both_same. intros [b o]. apply both_same. intros ys; repeat split; exact H2. }
    assert (Hconsider : forall n s, ~ In ScSlurp (ps_operations s) -> both (linked unslurping) (pscr_consider n s) (pscr_consider n s)).
    { clear s H Hproduce Hexpose. intros n s H. unfold pscr_consider. apply both_same. intros b. repeat split; exact H. }
    assert (Hbulk : forall buf s, ~ In ScSlurp (ps_operations s) ->
      both (linked unslurping) (p_bulk_produce (pscr_producer dbg fuel (mute P)) buf s) (p_bulk_produce (pscr_producer dbg fuel P) buf s)).
    { clear s H. intros buf s H. cbn [p_bulk_produce pscr_producer bulk_producer_of]. unfold default_bulk_produce.
      eapply both_bind; [apply Hexpose, H|]. intros [s1 r] [s2 r'] [[H1 H2] H3]. cbn [fst snd] in *. subst.
      destruct r' as [[ys|f]|e]; [|repeat split; exact H2..].
      eapply both_bind; [apply Hconsider, H2|]. intros [s1 r] [s3 r'] [[H1 H3] H4]. cbn [fst snd] in *. subst. destruct r' as [[]|e]; repeat split; exact H3. }
    apply alike_intro with (R := fun _ => unslurping); [|now split].
    clear s m H. intros m s1 s2 o [<- H] Ho. destruct o; cbn [p_do].
    - eapply both_bind; [apply Hproduce, H|]. intros [a r] [b r'] [H1 H2]. cbn in *. subst. auto.
    - unfold p_calls in Ho. rewrite andb_false_r in Ho. discriminate.
    - eapply both_bind; [apply Hexpose, H|]. intros [a r] [b r'] [H1 H2]. cbn in *. subst. auto.
    - eapply both_bind; [apply Hconsider, H|]. intros [a r] [b r'] [H1 H2]. cbn in *. subst. auto.
    - eapply both_bind; [apply Hbulk, H|]. intros [a [c r]] [b [c' r']] [H1 H2]. cbn in *. injection H2 as -> ->. auto.
  Qed.
End Unslurping.

Lemma pscr_producer_alike : forall S1 S2 T F E dbg fuel sl (P1 : bulk_producer S1 T F E) (P2 : bulk_producer S2 T F E) x0 s1 s2 pat cap,
  sl = true \/ ~ In ScSlurp pat -> alike_producer sl P1 P2 s1 s2 ->
  alike_producer false (pscr_producer dbg fuel P1) (pscr_producer dbg fuel P2) (pscr_new_with_capacity x0 s1 pat cap) (pscr_new_with_capacity x0 s2 pat cap).
Proof.
  intros S1 S2 T F E dbg fuel sl P1 P2 x0 s1 s2 pat cap [->|Hpat] H; [now apply pscr_producer_alike_true|].
  apply alike_p_false, alike_mute in H.
  assert (Hn : ~ In ScSlurp (if pscr_make_progress pat then pat else pat ++ [ScProduce])).
  { destruct (pscr_make_progress pat); [exact Hpat|]. rewrite in_app_iff. cbn. intros [H1|[H1|[]]]; [now apply Hpat|discriminate]. }
  apply alike_trans with (2 := @pscr_mute _ _ _ _ dbg P2 fuel (pscr_new_with_capacity x0 s2 pat cap) pmon_new Hn).
  apply alike_trans with (1 := alike_sym (@pscr_mute _ _ _ _ dbg P1 fuel (pscr_new_with_capacity x0 s1 pat cap) pmon_new Hn)).
  exact (pscr_producer_alike_true dbg fuel x0 pat cap H).
Qed.

(** ** Single calls *)
Section Calls.
  Context {S1 S2 T F E : Type}.

  (** Alike, with [k] items on display. *)
  Definition alike_p (slurps : bool) (P1 : bulk_producer S1 T F E) (P2 : bulk_producer S2 T F E) (k : nat) : S1 -> S2 -> Prop :=
    alike (p_calls slurps) (@p_saw T F E) (p_do P1) (p_do P2) (mk_pmon false k).
  Definition alike_c (C1 : bulk_consumer S1 T F E) (C2 : bulk_consumer S2 T F E) (k w : nat) : S1 -> S2 -> Prop :=
    alike (@c_may T F) (@c_saw T F E) (c_do C1) (c_do C2) (mk_cmon false k w).

  Ltac step H o Ho := let Hs := fresh "Hs" in pose proof (@alike_step _ _ _ _ _ _ _ _ _ _ _ _ o H Ho) as Hs; cbn -[Nat.max Nat.min] in Hs.
  Ltac done1 a b := destruct a as [[? ?]| |], b as [[? ?]| |]; cbn -[Nat.max Nat.min] in *; auto;
    match goal with Hs : _ /\ _ |- _ => let E1 := fresh in destruct Hs as [E1 Hs]; try (injection E1 as E1); subst; split; [reflexivity|] end.

  Section P.
    Variables (sl : bool) (P1 : bulk_producer S1 T F E) (P2 : bulk_producer S2 T F E).

    Lemma alike_p_less : forall k k' s1 s2, alike_p sl P1 P2 k' s1 s2 -> k <= k' -> alike_p sl P1 P2 k s1 s2.
    Proof.
      intros k k' s1 s2 H Hk.
      apply (@alike_mono _ _ _ _ _ (p_calls sl) (p_calls sl) _ _ _ (fun m m' => pm_over m' = pm_over m /\ pm_shown m <= pm_shown m')) with (m' := mk_pmon false k');
        [|cbn; auto|exact H].
      intros [o1 k1] [o2 k2] o [E1 E2] Ho; cbn in E1, E2; subst o2. split.
      - unfold p_calls, p_may in *. cbn [pm_over pm_shown] in *. destruct o; auto.
        destruct (n <=? k1) eqn:El; [|rewrite andb_false_r in Ho; discriminate].
        apply Nat.leb_le in El. replace (n <=? k2) with true; [exact Ho|]. symmetry. apply Nat.leb_le. lia.
      - intros a. cbn. split; [reflexivity|]. destruct o, a as [r|r|[[ys|f]|e]|b r]; cbn; lia.
    Qed.

    Lemma alike_produce : forall k s1 s2, alike_p sl P1 P2 k s1 s2 ->
      both (fun x y => snd x = snd y /\ forall i, snd x = Ok (inl i) -> alike_p sl P1 P2 (k - 1) (fst x) (fst y)) (p_produce P1 s1) (p_produce P2 s2).
    Proof. intros k s1 s2 H. step H (@PProduce T) (@eq_refl bool true). done1 (p_produce P1 s1) (p_produce P2 s2). intros i ->. exact Hs. Qed.
    Lemma alike_slurp : forall k s1 s2, sl = true -> alike_p sl P1 P2 k s1 s2 ->
      both (fun x y => snd x = snd y /\ (snd x = Ok tt -> alike_p sl P1 P2 k (fst x) (fst y))) (p_slurp P1 s1) (p_slurp P2 s2).
    Proof. intros k s1 s2 Hsl H. step H (@PSlurp T) Hsl. done1 (p_slurp P1 s1) (p_slurp P2 s2). intros ->. exact Hs. Qed.
    Lemma alike_expose : forall k s1 s2, alike_p sl P1 P2 k s1 s2 ->
      both (fun x y => snd x = snd y /\ forall ys, snd x = Ok (inl ys) -> alike_p sl P1 P2 (length ys) (fst x) (fst y)) (p_expose P1 s1) (p_expose P2 s2).
    Proof. intros k s1 s2 H. step H (@PExpose T) (@eq_refl bool true). done1 (p_expose P1 s1) (p_expose P2 s2). intros i ->. exact Hs. Qed.
    Lemma alike_consider : forall n k s1 s2, alike_p sl P1 P2 k s1 s2 -> n <= k ->
      both (fun x y => snd x = snd y /\ (snd x = Ok tt -> alike_p sl P1 P2 (k - n) (fst x) (fst y))) (p_consider P1 n s1) (p_consider P2 n s2).
    Proof.
      intros n k s1 s2 H Hn. assert (Ho : p_calls sl (mk_pmon false k) (@PConsider T n) = true).
      { unfold p_calls, p_may. cbn [pm_over pm_shown]. apply Nat.leb_le in Hn. now rewrite Hn. }
      step H (@PConsider T n) Ho. done1 (p_consider P1 n s1) (p_consider P2 n s2). intros ->. exact Hs.
    Qed.
    Lemma alike_bulk_produce : forall buf k s1 s2, alike_p sl P1 P2 k s1 s2 ->
      both (fun x y => snd x = snd y /\ forall n, snd (snd x) = Ok (inl n) -> alike_p sl P1 P2 0 (fst x) (fst y)) (p_bulk_produce P1 buf s1) (p_bulk_produce P2 buf s2).
    Proof.
      intros buf k s1 s2 H. step H (PBulkProduce buf) (@eq_refl bool true).
      destruct (p_bulk_produce P1 buf s1) as [[? [? ?]]| |], (p_bulk_produce P2 buf s2) as [[? [? ?]]| |]; cbn in *; auto. destruct Hs as [E1 Hs].
      injection E1 as -> ->. split; [reflexivity|]. intros i ->. exact Hs.
    Qed.
  End P.

  Section C.
    Variables (C1 : bulk_consumer S1 T F E) (C2 : bulk_consumer S2 T F E).

    Lemma alike_c_less : forall k w k' w' s1 s2, alike_c C1 C2 k' w' s1 s2 -> k <= k' -> w <= w' -> alike_c C1 C2 k w s1 s2.
    Proof.
      intros k w k' w' s1 s2 H Hk Hw.
      apply (@alike_mono _ _ _ _ _ (@c_may T F) (@c_may T F) _ _ _ (fun m m' => cm_over m' = cm_over m /\ cm_shown m <= cm_shown m' /\ cm_written m <= cm_written m'))
        with (m' := mk_cmon false k' w'); [|cbn; auto|exact H].
      intros [o1 k1 w1] [o2 k2 w2] o (E1 & E2 & E3) Ho; cbn in E1, E2, E3; subst o2. split.
      - unfold c_may in *. cbn [cm_over cm_shown cm_written] in *. destruct o; auto.
        destruct (n <=? w1) eqn:El; [|rewrite andb_false_r in Ho; discriminate].
        apply Nat.leb_le in El. replace (n <=? w2) with true; [exact Ho|]. symmetry. apply Nat.leb_le. lia.
      - intros a. destruct o, a as [r|[n1|e1]|[n1|e1]|]; cbn -[Nat.min Nat.max]; repeat split; lia.
    Qed.

    Lemma alike_consume : forall x k w s1 s2, alike_c C1 C2 k w s1 s2 ->
      both (fun x y => snd x = snd y /\ (snd x = Ok tt -> alike_c C1 C2 0 0 (fst x) (fst y))) (c_consume C1 x s1) (c_consume C2 x s2).
    Proof. intros x k w s1 s2 H. step H (@CConsume T F x) (@eq_refl bool true). done1 (c_consume C1 x s1) (c_consume C2 x s2). intros ->. exact Hs. Qed.
    Lemma alike_close : forall f k w s1 s2, alike_c C1 C2 k w s1 s2 ->
      both (fun x y => snd x = snd y) (c_close C1 f s1) (c_close C2 f s2).
    Proof.
      intros f k w s1 s2 H. step H (@CClose T F f) (@eq_refl bool true). destruct (c_close C1 f s1) as [[? ?]| |], (c_close C2 f s2) as [[? ?]| |]; cbn in *; auto.
      destruct Hs as [E1 _]. congruence.
    Qed.
    Lemma alike_flush : forall k w s1 s2, alike_c C1 C2 k w s1 s2 ->
      both (fun x y => snd x = snd y /\ (snd x = Ok tt -> alike_c C1 C2 k w (fst x) (fst y))) (c_flush C1 s1) (c_flush C2 s2).
    Proof. intros k w s1 s2 H. step H (@CFlush T F) (@eq_refl bool true). done1 (c_flush C1 s1) (c_flush C2 s2). intros ->. exact Hs. Qed.
    Lemma alike_bulk_consume : forall buf k w s1 s2, alike_c C1 C2 k w s1 s2 ->
      both (fun x y => snd x = snd y /\ (forall n, snd x = Ok n -> alike_c C1 C2 0 0 (fst x) (fst y))) (c_bulk_consume C1 buf s1) (c_bulk_consume C2 buf s2).
    Proof. intros buf k w s1 s2 H. step H (@CBulkConsume T F buf) (@eq_refl bool true). done1 (c_bulk_consume C1 buf s1) (c_bulk_consume C2 buf s2). intros n ->. exact Hs. Qed.
  End C.

  Section BP.
    Variables (sl : bool) (P1 : buffered_producer S1 T F E) (P2 : buffered_producer S2 T F E).
    Notation like := (alike_buffered_producer sl P1 P2).

    Lemma alike_bp_produce : forall s1 s2, like s1 s2 ->
      both (fun x y => snd x = snd y /\ forall i, snd x = Ok (inl i) -> like (fst x) (fst y)) (p_produce P1 s1) (p_produce P2 s2).
    Proof. intros s1 s2 H. step H BProduce (@eq_refl bool true). done1 (p_produce P1 s1) (p_produce P2 s2). intros i ->. exact Hs. Qed.
    Lemma alike_bp_slurp : forall s1 s2, sl = true -> like s1 s2 ->
      both (fun x y => snd x = snd y /\ (snd x = Ok tt -> like (fst x) (fst y))) (p_slurp P1 s1) (p_slurp P2 s2).
    Proof. intros s1 s2 Hsl H. step H BSlurp Hsl. done1 (p_slurp P1 s1) (p_slurp P2 s2). intros ->. exact Hs. Qed.
    Lemma alike_bp_intro : forall R : S1 -> S2 -> Prop,
      (forall s1 s2, R s1 s2 -> both (fun x y => snd x = snd y /\ forall i, snd x = Ok (inl i) -> R (fst x) (fst y)) (p_produce P1 s1) (p_produce P2 s2)) ->
      (forall s1 s2, sl = true -> R s1 s2 -> both (fun x y => snd x = snd y /\ (snd x = Ok tt -> R (fst x) (fst y))) (p_slurp P1 s1) (p_slurp P2 s2)) ->
      forall s1 s2, R s1 s2 -> like s1 s2.
    Proof.
      intros R H1 H2 s1 s2 H. apply alike_intro with (R := fun (over : bool) s1 s2 => over = true \/ R s1 s2); [|now right].
      clear s1 s2 H. intros [|] s1 s2 o HI Ho; [discriminate|]. destruct HI as [HI|HI]; [discriminate|]. destruct o; cbn [bp_do].
      - eapply both_bind; [apply (H1 _ _ HI)|]. intros [a [[i|f]|e]] [b r'] [E1 H]; cbn in *; subst; cbn; (split; [reflexivity|]); eauto.
      - eapply both_bind; [apply (H2 _ _ Ho HI)|]. intros [a [[]|e]] [b r'] [E1 H]; cbn in *; subst; cbn; (split; [reflexivity|]); eauto.
    Qed.
  End BP.

  Section BC.
    Variables (C1 : buffered_consumer S1 T F E) (C2 : buffered_consumer S2 T F E).
    Notation like := (alike_buffered_consumer C1 C2).

    Lemma alike_bc_consume : forall x s1 s2, like s1 s2 ->
      both (fun x y => snd x = snd y /\ (snd x = Ok tt -> like (fst x) (fst y))) (c_consume C1 x s1) (c_consume C2 x s2).
    Proof. intros x s1 s2 H. step H (@BConsume T F x) (@eq_refl bool true). done1 (c_consume C1 x s1) (c_consume C2 x s2). intros ->. exact Hs. Qed.
    Lemma alike_bc_close : forall f s1 s2, like s1 s2 -> both (fun x y => snd x = snd y) (c_close C1 f s1) (c_close C2 f s2).
    Proof.
      intros f s1 s2 H. step H (@BClose T F f) (@eq_refl bool true). destruct (c_close C1 f s1) as [[? ?]| |], (c_close C2 f s2) as [[? ?]| |]; cbn in *; auto.
      destruct Hs as [E1 _]. congruence.
    Qed.
    Lemma alike_bc_flush : forall s1 s2, like s1 s2 ->
      both (fun x y => snd x = snd y /\ (snd x = Ok tt -> like (fst x) (fst y))) (c_flush C1 s1) (c_flush C2 s2).
    Proof. intros s1 s2 H. step H (@BFlush T F) (@eq_refl bool true). done1 (c_flush C1 s1) (c_flush C2 s2). intros ->. exact Hs. Qed.
    Lemma alike_bc_intro : forall R : S1 -> S2 -> Prop,
      (forall x s1 s2, R s1 s2 -> both (fun x y => snd x = snd y /\ (snd x = Ok tt -> R (fst x) (fst y))) (c_consume C1 x s1) (c_consume C2 x s2)) ->
      (forall f s1 s2, R s1 s2 -> both (fun x y => snd x = snd y) (c_close C1 f s1) (c_close C2 f s2)) ->
      (forall s1 s2, R s1 s2 -> both (fun x y => snd x = snd y /\ (snd x = Ok tt -> R (fst x) (fst y))) (c_flush C1 s1) (c_flush C2 s2)) ->
      forall s1 s2, R s1 s2 -> like s1 s2.
    Proof.
      intros R H1 H2 H3 s1 s2 H. apply alike_intro with (R := fun (over : bool) s1 s2 => over = true \/ R s1 s2); [|now right].
      clear s1 s2 H. intros [|] s1 s2 o HI Ho; [discriminate|]. destruct HI as [HI|HI]; [discriminate|]. destruct o; cbn [bc_do].
      - eapply both_weaken; [apply (H1 x _ _ HI)|]. intros [a [[]|e]] [b r'] [E1 H]; cbn in *; subst; cbn; (split; [reflexivity|]); eauto.
      - eapply both_weaken; [apply (H2 f _ _ HI)|]. intros [a r] [b r'] E1; cbn in *; subst; cbn; auto.
      - eapply both_weaken; [apply (H3 _ _ HI)|]. intros [a [[]|e]] [b r'] [E1 H]; cbn in *; subst; cbn; (split; [reflexivity|]); eauto.
    Qed.
  End BC.

  Lemma alike_p_buffered : forall sl (P1 : bulk_producer S1 T F E) (P2 : bulk_producer S2 T F E) k s1 s2,
    alike_p sl P1 P2 k s1 s2 -> alike_buffered_producer sl P1 P2 s1 s2.
  Proof.
    intros sl P1 P2 k s1 s2 H. apply alike_bp_intro with (R := fun s1 s2 => exists k, alike_p sl P1 P2 k s1 s2); [..|eauto]; clear s1 s2 k H.
    - intros s1 s2 (k & H). eapply both_weaken; [apply (alike_produce H)|]. cbn. intros x y [E1 H1]. split; [exact E1|]. eauto.
    - intros s1 s2 Hsl (k & H). eapply both_weaken; [apply (alike_slurp Hsl H)|]. cbn. intros x y [E1 H1]. split; [exact E1|]. eauto.
  Qed.
  Lemma alike_c_buffered : forall (C1 : bulk_consumer S1 T F E) (C2 : bulk_consumer S2 T F E) k w s1 s2,
    alike_c C1 C2 k w s1 s2 -> alike_buffered_consumer C1 C2 s1 s2.
  Proof.
    intros C1 C2 k w s1 s2 H. apply alike_bc_intro with (R := fun s1 s2 => exists k w, alike_c C1 C2 k w s1 s2); [..|eauto]; clear s1 s2 k w H.
    - intros x s1 s2 (k & w & H). eapply both_weaken; [apply (alike_consume x H)|]. cbn. intros a b [E1 H1]. split; [exact E1|]. eauto.
    - intros f s1 s2 (k & w & H). apply (alike_close f H).
    - intros s1 s2 (k & w & H). eapply both_weaken; [apply (alike_flush H)|]. cbn. intros a b [E1 H1]. split; [exact E1|]. eauto.
  Qed.
End Calls.

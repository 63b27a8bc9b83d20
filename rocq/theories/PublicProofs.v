(** Proofs about the exported types. *)
From Coq Require Import Bool List Arith Lia.
From Verif Require Import Prelude ListFacts Traits Contracts ContractFacts BasicModel BasicSpec BasicProofs
  AdaptorModel AdaptorSpec AdaptorProofs PublicModel PublicSpec.
Import ListNotations.
Set Implicit Arguments.

Definition state_map {S S' X} (f : S -> S') (o : outcome (S * X)) : outcome (S' * X) :=
  match o with Ret (s, x) => Ret (f s, x) | Panic => Panic | NoFuel => NoFuel end.

(** ** Simulation by forgetting part of the state *)
Section Simulation.
  Context {S S0 : Type} (I : S -> Prop) (er : S -> S0).

  Definition sim {X} (f : S -> outcome (S * X)) (f0 : S0 -> outcome (S0 * X)) : Prop :=
    forall s, I s -> f0 (er s) = state_map er (f s) /\ (forall s' x, f s = Ret (s', x) -> I s').

  Record p_sim {T F E} (P : bulk_producer S T F E) (P0 : bulk_producer S0 T F E) : Prop := {
    ps_produce : sim (p_produce P) (p_produce P0);
    ps_slurp : sim (p_slurp P) (p_slurp P0);
    ps_expose : sim (p_expose P) (p_expose P0);
    ps_consider : forall n, sim (p_consider P n) (p_consider P0 n);
    ps_bulk : forall buf, sim (p_bulk_produce P buf) (p_bulk_produce P0 buf)
  }.

  Record c_sim {T F E} (C : bulk_consumer S T F E) (C0 : bulk_consumer S0 T F E) : Prop := {
    cs_consume : forall x, sim (c_consume C x) (c_consume C0 x);
    cs_close : forall f, sim (c_close C f) (c_close C0 f);
    cs_flush : sim (c_flush C) (c_flush C0);
    cs_expose : sim (c_expose C) (c_expose C0);
    cs_write : forall ys s, I s -> c_write C0 ys (er s) = er (c_write C ys s) /\ I (c_write C ys s);
    cs_slots : forall n, sim (c_consume_slots C n) (c_consume_slots C0 n);
    cs_bulk : forall buf, sim (c_bulk_consume C buf) (c_bulk_consume C0 buf)
  }.

  Lemma sim_bind : forall X Y f f0 (g : S -> X -> outcome (S * Y)) (g0 : S0 -> X -> outcome (S0 * Y)),
    sim f f0 -> (forall x, sim (fun s => g s x) (fun s => g0 s x)) ->
    sim (fun s => let* (s, x) := f s in g s x) (fun s => let* (s, x) := f0 s in g0 s x).
  Proof.
    intros X Y f f0 g g0 Hf Hg s Hs. destruct (Hf s Hs) as [E1 H1]. rewrite E1.
    destruct (f s) as [[s1 x]| |]; cbn; try (split; [reflexivity|discriminate]).
    exact (Hg x s1 (H1 _ _ eq_refl)).
  Qed.

  Lemma sim_ret : forall X (x : X), sim (fun s => Ret (s, x)) (fun s => Ret (s, x)).
  Proof. intros X x s Hs. split; [reflexivity|]. intros s' x' H. now inversion H; subst. Qed.

  Lemma sim_default_bulk_produce : forall T F E (ex : S -> outcome (S * res (list T + F) E)) ex0 co co0,
    sim ex ex0 -> (forall n, sim (co n) (co0 n)) -> forall buf,
    sim (default_bulk_produce ex co buf) (default_bulk_produce ex0 co0 buf).
  Proof.
    intros T F E ex ex0 co co0 He Hc buf s Hs. unfold default_bulk_produce.
    destruct (He s Hs) as [E1 H1]. rewrite E1. destruct (ex s) as [[s1 [[ys|f]|e]]| |]; cbn [state_map bind];
      try (split; [reflexivity|discriminate]); pose proof (H1 _ _ eq_refl) as Hs1;
      try (split; [reflexivity|]; intros s' x' H; now inversion H; subst).
    destruct (Hc (Nat.min (length ys) (length buf)) s1 Hs1) as [E2 H2]. rewrite E2.
    destruct (co _ s1) as [[s2 [[]|e]]| |]; cbn [state_map bind]; try (split; [reflexivity|discriminate]);
      (split; [reflexivity|]; intros s' x' H; inversion H; subst; now apply (H2 _ _ eq_refl)).
  Qed.

  Lemma sim_default_bulk_consume : forall T E (ex : S -> outcome (S * res nat E)) ex0 (wr : list T -> S -> S) wr0 co co0,
    sim ex ex0 -> (forall ys s, I s -> wr0 ys (er s) = er (wr ys s) /\ I (wr ys s)) ->
    (forall n, sim (co n) (co0 n)) -> forall buf,
    sim (default_bulk_consume ex wr co buf) (default_bulk_consume ex0 wr0 co0 buf).
  Proof.
    intros T E ex ex0 wr wr0 co co0 He Hw Hc buf s Hs. unfold default_bulk_consume.
    destruct (He s Hs) as [E1 H1]. rewrite E1. destruct (ex s) as [[s1 [n|e]]| |]; cbn [state_map bind];
      try (split; [reflexivity|discriminate]); pose proof (H1 _ _ eq_refl) as Hs1;
      try (split; [reflexivity|]; intros s' x' H; now inversion H; subst).
    destruct (Hw (firstn (Nat.min n (length buf)) buf) s1 Hs1) as [E3 Hs2]. rewrite E3.
    destruct (Hc (Nat.min n (length buf)) _ Hs2) as [E2 H2]. rewrite E2.
    destruct (co _ _) as [[s2 [[]|e]]| |]; cbn [state_map bind]; try (split; [reflexivity|discriminate]);
      (split; [reflexivity|]; intros s' x' H; inversion H; subst; now apply (H2 _ _ eq_refl)).
  Qed.

  Lemma p_sim_do : forall T F E (P : bulk_producer S T F E) P0, p_sim P P0 ->
    forall o, sim (p_do P o) (p_do P0 o).
  Proof.
    intros T F E P P0 H o.
    assert (K : forall X Y (g : X -> Y) f f0, sim f f0 ->
      sim (fun s => let* (s, r) := f s in Ret (s, g r)) (fun s => let* (s, r) := f0 s in Ret (s, g r))).
    { intros X Y g f f0 Hf. apply sim_bind; [exact Hf|]. intros x. apply sim_ret. }
    destruct o; cbn [p_do].
    - exact (K _ _ PAItem _ _ (ps_produce H)).
    - exact (K _ _ PAUnit _ _ (ps_slurp H)).
    - exact (K _ _ PASlice _ _ (ps_expose H)).
    - exact (K _ _ PAUnit _ _ (ps_consider H n)).
    - intros s Hs. destruct (ps_bulk H buf Hs) as [E1 H1]. cbn. rewrite E1.
      destruct (p_bulk_produce P buf s) as [[s1 [b r]]| |]; cbn; (split; [reflexivity|]); try discriminate.
      intros s' x' Hx. inversion Hx; subst. eapply H1. reflexivity.
  Qed.

  Lemma c_sim_do : forall T F E (C : bulk_consumer S T F E) C0, c_sim C C0 ->
    forall o, sim (c_do C o) (c_do C0 o).
  Proof.
    intros T F E C C0 H o.
    assert (K : forall X Y (g : X -> Y) f f0, sim f f0 ->
      sim (fun s => let* (s, r) := f s in Ret (s, g r)) (fun s => let* (s, r) := f0 s in Ret (s, g r))).
    { intros X Y g f f0 Hf. apply sim_bind; [exact Hf|]. intros x. apply sim_ret. }
    destruct o; cbn [c_do].
    - exact (K _ _ CAUnit _ _ (cs_consume H x)).
    - exact (K _ _ CAUnit _ _ (cs_close H f)).
    - exact (K _ _ CAUnit _ _ (cs_flush H)).
    - exact (K _ _ CASlots _ _ (cs_expose H)).
    - intros s Hs. destruct (cs_write H ys Hs) as [E1 H1]. cbn. rewrite E1. split; [reflexivity|].
      intros s' x' Hx. now inversion Hx; subst.
    - exact (K _ _ CAUnit _ _ (cs_slots H n)).
    - exact (K _ _ CANat _ _ (cs_bulk H buf)).
  Qed.

  Lemma p_sim_runs : forall T F E (P : bulk_producer S T F E) P0, p_sim P P0 -> forall ops s, I s ->
    p_runs P0 ops (er s) = (fst (p_runs P ops s), end_map er (snd (p_runs P ops s))).
  Proof.
    intros T F E P P0 H. induction ops as [|o ops IH]; intros s Hs; [reflexivity|]. cbn [p_runs].
    destruct (p_sim_do H o Hs) as [E1 H1]. rewrite E1.
    destruct (p_do P o s) as [[s1 r]| |]; cbn [state_map]; try reflexivity.
    rewrite (IH s1 (H1 _ _ eq_refl)). reflexivity.
  Qed.

  Lemma c_sim_runs : forall T F E (C : bulk_consumer S T F E) C0, c_sim C C0 -> forall ops s, I s ->
    c_runs C0 ops (er s) = (fst (c_runs C ops s), end_map er (snd (c_runs C ops s))).
  Proof.
    intros T F E C C0 H. induction ops as [|o ops IH]; intros s Hs; [reflexivity|]. cbn [c_runs].
    destruct (c_sim_do H o Hs) as [E1 H1]. rewrite E1.
    destruct (c_do C o s) as [[s1 r]| |]; cbn [state_map]; try reflexivity.
    rewrite (IH s1 (H1 _ _ eq_refl)). reflexivity.
  Qed.

  Lemma p_sim_conforms : forall T F E (P : bulk_producer S T F E) P0, p_sim P P0 -> forall ops s a, I s ->
    p_conforms P0 ops (er s) a -> p_conforms P ops s a.
  Proof.
    intros T F E P P0 H. induction ops as [|o ops IH]; intros s a Hs HC; [constructor|].
    inversion HC as [|? ? ? ? HN|? ? ? ? s0' r a' HP HD HA HC']; subst; [now apply p_conforms_broken|].
    destruct (p_sim_do H o Hs) as [E1 H1]. rewrite HD in E1.
    destruct (p_do P o s) as [[s1 r1]| |] eqn:Ed; cbn [state_map] in E1; try discriminate. injection E1 as -> ->.
    eapply p_conforms_step; eauto.
  Qed.

  Lemma c_sim_conforms : forall A T F E (C : bulk_consumer S T F E) C0 (M : machine A T F E), c_sim C C0 ->
    forall ops s a, I s -> c_conforms C0 M ops (er s) a -> c_conforms C M ops s a.
  Proof.
    intros A T F E C C0 M H. induction ops as [|o ops IH]; intros s a Hs HC; [constructor|].
    inversion HC as [|? ? ? ? HN|? ? ? ? s0' r a' HP HD HA HC']; subst; [now apply c_conforms_broken|].
    destruct (c_sim_do H o Hs) as [E1 H1]. rewrite HD in E1.
    destruct (c_do C o s) as [[s1 r1]| |] eqn:Ed; cbn [state_map] in E1; try discriminate. injection E1 as -> ->.
    eapply c_conforms_step; eauto.
  Qed.

  Lemma p_sim_history : forall T F E (P : bulk_producer S T F E) P0, p_sim P P0 -> forall h s a s' a', I s ->
    p_history P s a h s' a' -> p_history P0 (er s) a h (er s') a'.
  Proof.
    intros T F E P P0 H h s a s' a' Hs HH. induction HH as [|s a o s1 r a1 h s2 a2 HP HD HA HH IH]; [constructor|].
    destruct (p_sim_do H o Hs) as [E1 H1]. rewrite HD in E1. cbn in E1.
    eapply p_history_step; eauto.
  Qed.

  Lemma c_sim_history : forall A T F E (C : bulk_consumer S T F E) C0 (M : machine A T F E), c_sim C C0 ->
    forall h s a s' a', I s -> c_history C M s a h s' a' -> c_history C0 M (er s) a h (er s') a'.
  Proof.
    intros A T F E C C0 M H h s a s' a' Hs HH. induction HH as [|s a o s1 r a1 h s2 a2 HP HD HA HH IH]; [constructor|].
    destruct (c_sim_do H o Hs) as [E1 H1]. rewrite HD in E1. cbn in E1.
    eapply c_history_step; eauto.
  Qed.

  Lemma p_sim_history_conv : forall T F E (P : bulk_producer S T F E) P0, p_sim P P0 -> forall h s0 a s0' a',
    p_history P0 s0 a h s0' a' -> forall s, er s = s0 -> I s ->
    exists s', p_history P s a h s' a' /\ er s' = s0'.
  Proof.
    intros T F E P P0 H h s0 a s0' a' HH.
    induction HH as [s0 a|s0 a o s1 r a1 h s2 a2 HP HD HA HH IH]; intros s <- Hs; [exists s; split; [constructor|reflexivity]|].
    destruct (p_sim_do H o Hs) as [E1 H1]. rewrite HD in E1.
    destruct (p_do P o s) as [[s3 r3]| |] eqn:Ed; cbn [state_map] in E1; try discriminate. injection E1 as -> ->.
    destruct (IH s3 eq_refl (H1 _ _ eq_refl)) as (s' & H2 & H3). exists s'. split; [|exact H3].
    eapply p_history_step; eauto.
  Qed.

  Lemma c_sim_history_conv : forall A T F E (C : bulk_consumer S T F E) C0 (M : machine A T F E), c_sim C C0 -> forall h s0 a s0' a',
    c_history C0 M s0 a h s0' a' -> forall s, er s = s0 -> I s ->
    exists s', c_history C M s a h s' a' /\ er s' = s0'.
  Proof.
    intros A T F E C C0 M H h s0 a s0' a' HH.
    induction HH as [s0 a|s0 a o s1 r a1 h s2 a2 HP HD HA HH IH]; intros s <- Hs; [exists s; split; [constructor|reflexivity]|].
    destruct (c_sim_do H o Hs) as [E1 H1]. rewrite HD in E1.
    destruct (c_do C o s) as [[s3 r3]| |] eqn:Ed; cbn [state_map] in E1; try discriminate. injection E1 as -> ->.
    destruct (IH s3 eq_refl (H1 _ _ eq_refl)) as (s' & H2 & H3). exists s'. split; [|exact H3].
    eapply c_history_step; eauto.
  Qed.
End Simulation.

(** ** The production build: forwarding changes nothing *)
Section Forwarding.
  Context {S T F E : Type}.

  Lemma inv_forward_sim : forall X (f : S -> outcome (S * X)),
    sim (fun _ => True) (@inv_inner S) (inv_forward f) f.
  Proof.
    intros X f s _. unfold inv_forward. destruct (f (inv_inner s)) as [[i x]| |]; split; auto.
  Qed.

  Lemma forwarding_producer_sim : forall P : bulk_producer S T F E,
    (forall buf s, p_bulk_produce P buf s = default_bulk_produce (p_expose P) (p_consider P) buf s) ->
    p_sim (fun _ => True) (@inv_inner S) (public_producer false P) P.
  Proof.
    intros P HB. constructor; cbn; try (intros; apply inv_forward_sim).
    intros buf s Hs. rewrite HB. apply (@sim_default_bulk_produce _ _ (fun _ => True) (@inv_inner S)); auto;
      intros; apply inv_forward_sim.
  Qed.

  Lemma forwarding_consumer_sim : forall C : bulk_consumer S T F E,
    (forall buf s, c_bulk_consume C buf s = default_bulk_consume (c_expose C) (c_write C) (c_consume_slots C) buf s) ->
    c_sim (fun _ => True) (@inv_inner S) (public_consumer false C) C.
  Proof.
    intros C HB. constructor; cbn; try (intros; apply inv_forward_sim); [auto|].
    intros buf s Hs. rewrite HB. apply (@sim_default_bulk_consume _ _ (fun _ => True) (@inv_inner S)); auto;
      intros; apply inv_forward_sim.
  Qed.
End Forwarding.

(** ** Lawfulness in both builds *)
Section PublicP.
  Context {S T F E : Type} {P : bulk_producer S T F E} {R : S -> list T -> res F E -> nat -> Prop} {D : S -> Prop}.

  Definition pub_rel (checks : bool) : invariant S -> list T -> res F E -> nat -> Prop :=
    if checks then inv_rel R else fun s => R (inv_inner s).
  Definition pub_end (checks : bool) : invariant S -> Prop :=
    if checks then inv_end D else fun s => D (inv_inner s).

  Lemma forwarding_core : lawful_producer_core P R D ->
    lawful_producer_core (forwarding_producer P) (pub_rel false) (pub_end false).
  Proof.
    intros L. constructor; unfold pub_rel, pub_end.
    - intros s xs l k H. exact (lp_wf L H).
    - intros s xs l k H. exact (lp_forget L H).
    - intros [i b j] x xs l k H. destruct (lp_produce L H) as (i' & E1 & H'). cbn in *. unfold inv_forward. cbn. rewrite E1. cbn. eauto.
    - intros [i b j] l k H. destruct (lp_produce_last L H) as (i' & E1 & H'). cbn in *. unfold inv_forward. cbn. rewrite E1. cbn. eauto.
    - intros [i b j] xs l k H Hne. destruct (lp_expose L H Hne) as (i' & ys & rest & E1 & H1 & H2 & H'). cbn in *. unfold inv_forward. cbn. rewrite E1. cbn. exists (mk_invariant i' b j), ys, rest. split; [reflexivity|]. auto.
    - intros [i b j] l k H. destruct (lp_expose_last L H) as (i' & E1 & H'). cbn in *. unfold inv_forward. cbn. rewrite E1. cbn. eauto.
    - intros [i b j] xs l k n H Hk Hn. destruct (lp_consider L n H Hk Hn) as (i' & E1 & H'). cbn in *. unfold inv_forward. cbn. rewrite E1. cbn. eauto.
  Qed.

  Lemma public_lawful : forall checks, lawful_producer_core P R D ->
    lawful_producer (public_producer checks P) (pub_rel checks) (pub_end checks).
  Proof.
    intros [|] L; [exact (invariant_lawful L)|].
    apply default_lawful_producer; [|reflexivity]. exact (forwarding_core L).
  Qed.

  Lemma public_slurp_lawful : forall checks, lawful_slurp P R D ->
    lawful_slurp (public_producer checks P) (pub_rel checks) (pub_end checks).
  Proof.
    intros [|] L; [exact (invariant_slurp_lawful L)|].
    intros [i b j] xs l k H. cbn in *. unfold inv_forward. cbn.
    destruct (L _ _ _ _ H) as [(i' & E1 & H')|(i' & e & E1 & Hx & He & HD)]; rewrite E1; cbn; eauto 10.
  Qed.

  Lemma public_rel_new : forall checks s xs l, R s xs l 0 -> pub_rel checks (invariant_new s) xs l 0.
  Proof. intros [|] s xs l H; unfold pub_rel; [|exact H]. unfold inv_rel. cbn. auto. Qed.

  Hypothesis bulk_default : forall buf s, p_bulk_produce P buf s = default_bulk_produce (p_expose P) (p_consider P) buf s.

  Lemma noop_do : forall o s, p_do (invariant_noop_producer P) o s = p_do P o s.
  Proof. intros [| | | |buf] s; cbn; rewrite ?bulk_default; reflexivity. Qed.

  Lemma public_do_conv : forall checks o s s1 r, p_do (public_producer checks P) o s = Ret (s1, r) ->
    p_do P o (inv_inner s) = Ret (inv_inner s1, r).
  Proof.
    intros [|] o s s1 r H.
    - rewrite <- noop_do. exact (@invariant_do_conv _ _ _ _ P _ _ _ _ H).
    - destruct (p_sim_do (forwarding_producer_sim P bulk_default) o s Logic.I) as [E1 _].
      rewrite H in E1. exact E1.
  Qed.

  Lemma public_history : forall checks h s a s' a', p_history (public_producer checks P) s a h s' a' ->
    p_history P (inv_inner s) a h (inv_inner s') a'.
  Proof.
    intros checks h s a s' a' H. induction H as [|s a o s1 r a1 h s2 a2 HP HD HA HH IH]; [constructor|].
    eapply p_history_step; eauto using public_do_conv.
  Qed.

  Lemma public_history_conv : forall checks h s a i a',
    lawful_producer_core P R D -> (lawful_slurp P R D \/ ~ In PSlurp (map fst h)) ->
    p_rel (pub_rel checks) (pub_end checks) s a ->
    p_history P (inv_inner s) a h i a' ->
    exists s', p_history (public_producer checks P) s a h s' a' /\ inv_inner s' = i.
  Proof.
    intros checks h s a i a' L. remember (inv_inner s) as s0 eqn:E0. intros LS HR HH. revert s E0 HR LS.
    induction HH as [s0 a|s0 a o s1 r a1 h s2 a2 HP HD HA HH IH]; intros s -> HR LS.
    - exists s. split; [constructor|reflexivity].
    - assert (LS1 : lawful_slurp (public_producer checks P) (pub_rel checks) (pub_end checks) \/ o <> PSlurp).
      { destruct LS as [LS|LS]; [left; now apply public_slurp_lawful|right]. intros ->. apply LS. now left. }
      destruct (@lawful_p_step _ _ _ _ _ _ _ o s a (public_lawful checks L) LS1 HR HP) as (s' & r' & a' & E1 & HA' & HR').
      pose proof (@public_do_conv _ _ _ _ _ E1) as E2. rewrite HD in E2. injection E2 as -> ->.
      rewrite (p_answer_det _ _ _ _ _ HA HA') in *.
      destruct (IH s' eq_refl HR') as (s3 & H1 & H2).
      { destruct LS as [LS|LS]; [now left|right]. intros HI. apply LS. now right. }
      exists s3. split; [|exact H2]. eapply p_history_step; eauto.
  Qed.

  Lemma public_history_iff : forall checks h s xs l i a',
    lawful_producer_core P R D -> (lawful_slurp P R D \/ ~ In PSlurp (map fst h)) -> R s xs l 0 ->
    (p_history P s (PActive xs l 0) h i a' <->
     exists s', p_history (public_producer checks P) (invariant_new s) (PActive xs l 0) h s' a' /\ inv_inner s' = i).
  Proof.
    intros checks h s xs l i a' L LS HR. split.
    - intros HH. apply public_history_conv; auto. exact (public_rel_new checks HR).
    - intros (s' & HH & <-). exact (public_history HH).
  Qed.

  Lemma public_conforms : forall checks ops s xs l,
    lawful_producer_core P R D -> (lawful_slurp P R D \/ ~ In PSlurp ops) -> R s xs l 0 ->
    p_conforms (public_producer checks P) ops (invariant_new s) (PActive xs l 0).
  Proof.
    intros checks ops s xs l L LS HR.
    apply (@lawful_p_conforms _ _ _ _ _ (pub_rel checks) (pub_end checks)).
    - now apply public_lawful.
    - destruct LS as [LS|LS]; [left; now apply public_slurp_lawful|now right].
    - exact (public_rel_new checks HR).
  Qed.
End PublicP.
Arguments pub_rel {S T F E} R checks _ _ _ _.
Arguments pub_end {S} D checks _.

Section PublicC.
  Context {S A T F E : Type} {C : bulk_consumer S T F E} {M : machine A T F E}
    {R : S -> A -> nat -> list T -> Prop} {D : S -> A -> Prop}.

  Definition pubc_rel (checks : bool) : invariant S -> A -> nat -> list T -> Prop :=
    if checks then invc_rel R else fun s => R (inv_inner s).
  Definition pubc_end (s : invariant S) (a : A) : Prop := D (inv_inner s) a.

  Lemma forwarding_consumer_core : lawful_consumer_core C M R D ->
    lawful_consumer_core (forwarding_consumer C) M (pubc_rel false) pubc_end.
  Proof.
    intros L. constructor; unfold pubc_rel, pubc_end.
    - intros s a k w H. exact (lc_wf L H).
    - intros s a k w H. exact (lc_forget L H).
    - intros [i b j] a k w x H. destruct (lc_consume L x H) as (i' & E1 & H'). cbn in *. unfold inv_forward. cbn. rewrite E1. cbn.
      eexists. split; [reflexivity|]. exact H'.
    - intros [i b j] a k w f H. destruct (lc_close L f H) as (i' & E1 & H'). cbn in *. unfold inv_forward. cbn. rewrite E1. cbn.
      eexists. split; [reflexivity|]. exact H'.
    - intros [i b j] a k w H. destruct (lc_flush L H) as (i' & E1 & H'). cbn in *. unfold inv_forward. cbn. rewrite E1. cbn.
      eexists. split; [reflexivity|]. exact H'.
    - intros [i b j] a k w H. destruct (lc_expose L H) as [(i' & n & E1 & Hn & H')|(i' & e & a' & E1 & Hall & HD)];
        cbn in *; unfold inv_forward; cbn; rewrite E1; cbn.
      + left. do 2 eexists. split; [reflexivity|]. auto.
      + right. do 3 eexists. split; [reflexivity|]. auto.
    - intros [i b j] a k w ys H Hy. cbn in *. now apply (lc_write L).
    - intros [i b j] a k w n H Hk Hn. pose proof (lc_consume_slots L n H Hk Hn) as HS. cbn in *. unfold inv_forward. cbn.
      destruct (m_feed M (firstn n w) a) as [[a1 c] [e|]]; destruct HS as (i' & E1 & HR'); rewrite E1; cbn;
        eexists; (split; [reflexivity|]); auto.
  Qed.

  Lemma publicc_lawful : forall checks, lawful_consumer_core C M R D ->
    lawful_consumer (public_consumer checks C) M (pubc_rel checks) pubc_end.
  Proof.
    intros [|] L; [exact (invariant_consumer_lawful L)|].
    apply default_lawful_consumer; [|reflexivity]. exact (forwarding_consumer_core L).
  Qed.

  Lemma publicc_rel_new : forall checks s a, R s a 0 [] -> pubc_rel checks (invariant_new s) a 0 [].
  Proof. intros [|] s a H; unfold pubc_rel; [|exact H]. unfold invc_rel. cbn. auto. Qed.

  Lemma publicc_conforms : forall checks ops s a,
    lawful_consumer_core C M R D -> R s a 0 [] ->
    c_conforms (public_consumer checks C) M ops (invariant_new s) (CActive a 0 []).
  Proof.
    intros checks ops s a L HR. apply (@lawful_c_conforms _ _ _ _ _ _ _ (pubc_rel checks) pubc_end).
    - now apply publicc_lawful.
    - exact (publicc_rel_new checks HR).
  Qed.

  Hypothesis bulk_default : forall buf s,
    c_bulk_consume C buf s = default_bulk_consume (c_expose C) (c_write C) (c_consume_slots C) buf s.

  Lemma noopc_do : forall o s, c_do (invariant_noop_consumer C) o s = c_do C o s.
  Proof. intros [| | | | | |buf] s; cbn; rewrite ?bulk_default; reflexivity. Qed.

  Lemma publicc_do_conv : forall checks o s s1 r, c_do (public_consumer checks C) o s = Ret (s1, r) ->
    c_do C o (inv_inner s) = Ret (inv_inner s1, r).
  Proof.
    intros [|] o s s1 r H.
    - rewrite <- noopc_do. exact (@invariantc_do_conv _ _ _ _ C _ _ _ _ H).
    - destruct (c_sim_do (forwarding_consumer_sim C bulk_default) o s Logic.I) as [E1 _].
      rewrite H in E1. exact E1.
  Qed.

  Lemma publicc_history : forall checks h s a s' a', c_history (public_consumer checks C) M s a h s' a' ->
    c_history C M (inv_inner s) a h (inv_inner s') a'.
  Proof.
    intros checks h s a s' a' H. induction H as [|s a o s1 r a1 h s2 a2 HP HD HA HH IH]; [constructor|].
    eapply c_history_step; eauto using publicc_do_conv.
  Qed.

  Lemma publicc_history_conv : forall (x0 : T) checks h s a i a',
    lawful_consumer_core C M R D -> c_rel (pubc_rel checks) pubc_end s a ->
    c_history C M (inv_inner s) a h i a' ->
    exists s', c_history (public_consumer checks C) M s a h s' a' /\ inv_inner s' = i.
  Proof.
    intros x0 checks h s a i a' L. remember (inv_inner s) as s0 eqn:E0. intros HR HH. revert s E0 HR.
    induction HH as [s0 a|s0 a o s1 r a1 h s2 a2 HP HD HA HH IH]; intros s -> HR.
    - exists s. split; [constructor|reflexivity].
    - destruct (@lawful_c_step _ _ _ _ _ _ _ _ _ o s a (publicc_lawful checks L) HR HP) as (s' & r' & a' & E1 & HA' & HR').
      pose proof (@publicc_do_conv _ _ _ _ _ E1) as E2. rewrite HD in E2. injection E2 as -> ->.
      rewrite (c_answer_det x0 _ _ _ _ _ HA HA') in *.
      destruct (IH s' eq_refl HR') as (s3 & H1 & H2).
      exists s3. split; [|exact H2]. eapply c_history_step; eauto.
  Qed.

  Lemma publicc_history_iff : forall (x0 : T) checks h s a i a',
    lawful_consumer_core C M R D -> R s a 0 [] ->
    (c_history C M s (CActive a 0 []) h i a' <->
     exists s', c_history (public_consumer checks C) M (invariant_new s) (CActive a 0 []) h s' a' /\ inv_inner s' = i).
  Proof.
    intros x0 checks h s a i a' L HR. split.
    - intros HH. apply (publicc_history_conv x0); auto. exact (publicc_rel_new checks HR).
    - intros (s' & HH & <-). exact (publicc_history HH).
  Qed.
End PublicC.

(** ** The checker inside the test producer and the test consumer *)

(** The inner checker accepts a call that the outer one has accepted with [j] items exposed. *)
Definition inner_ok {S} (checks : bool) (i : invariant S) (j : nat) : Prop :=
  checks = true -> inv_active i = true /\ j <= inv_exposed i.

(** What the method [f] of the state with the inner checker does in comparison with [f0]. *)
Definition erases {S S' X} (er : S -> S') (inner : S -> nat -> Prop) (j : nat) (f : outcome (S * X)) (f0 : outcome (S' * X))
    (j' : X -> nat) : Prop :=
  f0 = state_map er f /\ (forall s' x, f = Ret (s', x) -> inner s' (j' x)).

Section NestedP.
  Context {T F E : Type} (checks : bool).
  Notation state := (nested_tp_state T F E).
  Notation ok := (fun (s : state) (j : nat) => inner_ok checks (ntp_inner s) j).

  Lemma ntp_yield : forall (s : state), tp_maybe_yield (tp_erase s) =
    match ntp_maybe_yield s with Ret s' => Ret (tp_erase s') | Panic => Panic | NoFuel => NoFuel end.
  Proof. intros s. unfold tp_maybe_yield, ntp_maybe_yield. cbn. destruct (maybe_yield (ntp_yielder s)); reflexivity. Qed.

  Lemma ntp_yield_inner : forall (s s' : state), ntp_maybe_yield s = Ret s' -> ntp_inner s' = ntp_inner s.
  Proof.
    intros s s' H. unfold ntp_maybe_yield in H. destruct (maybe_yield (ntp_yielder s)); inversion H; subst. reflexivity.
  Qed.

  Ltac yield s H :=
    rewrite ntp_yield; destruct (ntp_maybe_yield s) as [s1| |] eqn:Ey;
    cbn [bind state_map]; [|split; [reflexivity|discriminate]..];
    cbv beta in H; rewrite <- (ntp_yield_inner _ Ey) in H; clear Ey s; rename s1 into s.

  Lemma nested_tp_produce_erases : forall s j, ok s j ->
    erases tp_erase ok j (nested_tp_produce checks s) (test_producer_produce (tp_erase s)) (fun _ => j).
  Proof.
    intros s j H. unfold erases, test_producer_produce, nested_tp_produce. yield s H.
    unfold public_from_slice_not_yet_produced. cbn [tp_erase tp_inner].
    destruct (from_slice_not_yet_produced (inv_inner (ntp_inner s))) as [[|y ys]| |] eqn:En; cbn [bind];
      try (split; [reflexivity|discriminate]).
    - unfold tp_take_last, ntp_take_last. cbn. destruct (ntp_last s) as [[f|e]|]; cbn; (split; [reflexivity|]); try discriminate;
        intros s' x Hx; inversion Hx; subst; exact H.
    - destruct s as [[fs b k] la sz yi]. unfold inner_ok in *. cbn in *. unfold from_slice_produce, inv_forward, invariant_produce, inv_check.
      destruct checks.
      + destruct (H eq_refl) as [-> Hj]. cbn. unfold from_slice_produce. cbn.
        destruct (length (fs_slice fs) =? fs_offset fs); cbn; [split; [reflexivity|discriminate]|].
        destruct (index (fs_offset fs) (fs_slice fs)); cbn; (split; [reflexivity|]); try discriminate.
        intros s' x Hx _. inversion Hx; subst. cbn. auto.
      + cbn. unfold inv_forward, from_slice_produce. cbn. destruct (length (fs_slice fs) =? fs_offset fs); cbn; [split; [reflexivity|discriminate]|].
        destruct (index (fs_offset fs) (fs_slice fs)); cbn; (split; [reflexivity|]); try discriminate.
  Qed.

  Lemma ntp_check_error_erases : forall s j, ok s j ->
    erases tp_erase ok j (ntp_check_error s) (tp_check_error (tp_erase s)) (fun _ => j).
  Proof.
    intros s j H. unfold erases, tp_check_error, ntp_check_error, public_from_slice_not_yet_produced. cbn [tp_erase tp_inner].
    destruct (from_slice_not_yet_produced (inv_inner (ntp_inner s))) as [[|y ys]| |] eqn:En; cbn [bind];
      try (split; [reflexivity|discriminate]).
    - cbn. destruct (ntp_last s) as [[f|e]|]; cbn; (split; [reflexivity|]); try discriminate;
        intros s' x Hx; inversion Hx; subst; exact H.
    - split; [reflexivity|]. intros s' x Hx; inversion Hx; subst; exact H.
  Qed.

  Ltac check_error s H :=
    destruct (ntp_check_error_erases H) as [Ec Hc]; rewrite Ec; clear Ec H;
    destruct (ntp_check_error s) as [[s1 [e|]]| |]; cbn [bind state_map];
    try (split; [reflexivity|]); try discriminate;
    [intros s' x Hx; inversion Hx; subst; exact (Hc _ _ eq_refl)|];
    pose proof (Hc _ _ eq_refl) as H; clear Hc s; rename s1 into s; cbv beta in H.

  Lemma nested_tp_slurp_erases : forall s j, ok s j ->
    erases tp_erase ok j (nested_tp_slurp s) (test_producer_slurp (tp_erase s)) (fun _ => j).
  Proof.
    intros s j H. unfold erases, test_producer_slurp, nested_tp_slurp. yield s H.
    check_error s H. intros s' x Hx; inversion Hx; subst; exact H.
  Qed.

  Lemma nested_tp_consider_erases : forall n s j, ok s j -> (checks = true -> n <= j) ->
    erases tp_erase ok j (nested_tp_consider checks n s) (test_producer_consider n (tp_erase s)) (fun _ => j - n).
  Proof.
    intros n s j H Hn. unfold erases, test_producer_consider, nested_tp_consider. yield s H.
    destruct (ntp_check_error_erases H) as [Ec Hc]; rewrite Ec; clear Ec H;
    destruct (ntp_check_error s) as [[s1 [e|]]| |]; cbn [bind state_map];
    try (split; [reflexivity|discriminate]).
    - split; [reflexivity|]. intros s' x Hx; inversion Hx; subst. intros Hch. destruct (Hc _ _ eq_refl Hch). split; [assumption|lia].
    - pose proof (Hc _ _ eq_refl) as H; clear Hc s; rename s1 into s. cbv beta in H.
      destruct s as [[fs b k] la sz yi]. unfold inner_ok in *. cbn in *. unfold inv_forward, invariant_consider, inv_check.
      destruct checks; cbn.
      + destruct (H eq_refl) as [-> Hj]. unfold invariant_consider, inv_check. cbn.
        specialize (Hn eq_refl). destruct (Nat.ltb_spec k n); [lia|]. rewrite csub_ok by lia. cbn.
        split; [reflexivity|]. intros s' x Hx _. inversion Hx; subst. cbn. split; [reflexivity|lia].
      + unfold inv_forward. cbn. split; [reflexivity|discriminate].
  Qed.

  Lemma nested_tp_expose_erases : forall s j, ok s j ->
    erases tp_erase ok j (nested_tp_expose checks s) (test_producer_expose (tp_erase s))
      (fun r => match r with Ok (inl ys) => length ys | _ => j end).
  Proof.
    intros s j H. unfold erases, test_producer_expose, nested_tp_expose. yield s H.
    unfold public_from_slice_not_yet_produced. cbn [tp_erase tp_inner tp_sizes].
    destruct (from_slice_not_yet_produced (inv_inner (ntp_inner s))) as [[|y ys]| |] eqn:En; cbn [bind];
      try (split; [reflexivity|discriminate]).
    - unfold tp_take_last, ntp_take_last. cbn. destruct (ntp_last s) as [[f|e]|]; cbn; (split; [reflexivity|]); try discriminate;
        intros s' x Hx; inversion Hx; subst; exact H.
    - destruct s as [[fs b k] la sz yi]. unfold inner_ok in *. cbn [ntp_inner ntp_last ntp_sizes ntp_yielder inv_inner inv_active inv_exposed] in *.
      assert (Ex : from_slice_expose fs = Ret (fs, Ok (inl (y :: ys)))).
      { unfold from_slice_expose. unfold from_slice_not_yet_produced in En. rewrite En. reflexivity. }
      assert (Ei : p_expose (public_producer checks (@from_slice_producer T)) (mk_invariant fs b k) =
        if checks then (if b then Ret (mk_invariant fs b (length (y :: ys)), Ok (inl (y :: ys))) else Panic)
        else Ret (mk_invariant fs b k, Ok (inl (y :: ys)))).
      { destruct checks; cbn; unfold invariant_expose, inv_forward, inv_check; cbn; rewrite Ex; destruct b; reflexivity. }
      destruct sz as [sz|]; rewrite ?Ei, ?Ex; cbn [bind].
      + destruct (next_size sz) as [[max sz']| |]; cbn [bind]; try (split; [reflexivity|discriminate]).
        destruct checks.
        * destruct (H eq_refl) as [-> Hj]. cbn [bind unwrap_left].
          destruct (slice_to (Nat.min (length (y :: ys)) max) (y :: ys)) as [zs| |] eqn:Es; cbn [bind]; (split; [reflexivity|]); try discriminate.
          intros s' x Hx _. inversion Hx; subst. cbn [ntp_inner inv_active inv_exposed]. split; [reflexivity|].
          unfold slice_to, slice in Es.
          destruct (_ <? _); inversion Es; subst. rewrite firstn_length. cbn [length]. lia.
        * cbn [bind unwrap_left].
          destruct (slice_to (Nat.min (length (y :: ys)) max) (y :: ys)) as [zs| |] eqn:Es; cbn [bind]; (split; [reflexivity|]); discriminate.
      + destruct checks.
        * destruct (H eq_refl) as [-> Hj]. cbn [bind unwrap_left]. split; [reflexivity|].
          intros s' x Hx _. inversion Hx; subst. cbn. auto.
        * cbn. split; [reflexivity|]. discriminate.
  Qed.

  (** With the outer checker around it. *)
  Definition outer_tp_erase (s : invariant state) : invariant (test_producer_state T F E) :=
    mk_invariant (tp_erase (inv_inner s)) (inv_active s) (inv_exposed s).
  Definition outer_tp_ok (s : invariant state) : Prop :=
    inv_active s = true -> ok (inv_inner s) (inv_exposed s).

  Lemma public_test_producer_sim :
    p_sim outer_tp_ok outer_tp_erase (public_producer checks (nested_test_producer checks))
      (public_producer checks (@test_producer T F E)).
  Proof.
    assert (Hex : sim outer_tp_ok outer_tp_erase
      (p_expose (public_producer checks (nested_test_producer checks)))
      (p_expose (public_producer checks (@test_producer T F E)))).
    { intros [s b j] H. unfold outer_tp_ok, outer_tp_erase in *. cbn [inv_inner inv_active inv_exposed] in *.
      destruct checks eqn:Hch.
      - cbn. unfold invariant_expose, inv_check. cbn. destruct b; [|split; [reflexivity|discriminate]].
        cbn. rewrite <- Hch in *. destruct (nested_tp_expose_erases (H eq_refl)) as [E1 H1]. rewrite E1.
        destruct (nested_tp_expose checks s) as [[s1 [[ys|f]|e]]| |]; cbn; (split; [reflexivity|]); try discriminate;
          intros s' x Hx; inversion Hx; subst; cbn; try discriminate. intros _. exact (H1 _ _ eq_refl).
      - cbn. unfold inv_forward. cbn. rewrite <- Hch in *.
        assert (H0 : ok s 0). { intros Ht. congruence. }
        destruct (nested_tp_expose_erases H0) as [E1 H1]. rewrite E1.
        destruct (nested_tp_expose checks s) as [[s1 r]| |]; cbn; (split; [reflexivity|]); try discriminate.
        intros s' x Hx _ Ht. congruence. }
    assert (Hco : forall n, sim outer_tp_ok outer_tp_erase
      (p_consider (public_producer checks (nested_test_producer checks)) n)
      (p_consider (public_producer checks (@test_producer T F E)) n)).
    { intros n [s b j] H. unfold outer_tp_ok, outer_tp_erase in *. cbn [inv_inner inv_active inv_exposed] in *.
      destruct checks eqn:Hch.
      - cbn. unfold invariant_consider, inv_check. cbn. destruct b; [|split; [reflexivity|discriminate]].
        cbn. rewrite <- Hch in *. destruct (Nat.ltb_spec j n); [split; [reflexivity|discriminate]|]. rewrite csub_ok by lia. cbn.
        assert (Hn : checks = true -> n <= j) by auto.
        destruct (@nested_tp_consider_erases n s j (H eq_refl) Hn) as [E1 H1]. rewrite E1.
        destruct (nested_tp_consider checks n s) as [[s1 r]| |]; cbn; (split; [reflexivity|]); try discriminate;
          intros s' x Hx; inversion Hx; subst; cbn; try discriminate. intros _. exact (H1 _ _ eq_refl).
      - cbn. unfold inv_forward. cbn. rewrite <- Hch in *.
        assert (H0 : ok s 0). { intros Ht. congruence. }
        assert (Hn : checks = true -> n <= 0) by congruence.
        destruct (@nested_tp_consider_erases n s 0 H0 Hn) as [E1 H1]. rewrite E1.
        destruct (nested_tp_consider checks n s) as [[s1 r]| |]; cbn; (split; [reflexivity|]); try discriminate.
        intros s' x Hx _ Ht. congruence. }
    constructor.
    - intros [s b j] H. unfold outer_tp_ok, outer_tp_erase in *. cbn [inv_inner inv_active inv_exposed] in *.
      destruct checks eqn:Hch.
      + cbn. unfold invariant_produce, inv_check. cbn. destruct b; [|split; [reflexivity|discriminate]].
        cbn. rewrite <- Hch in *. destruct (nested_tp_produce_erases (H eq_refl)) as [E1 H1]. rewrite E1.
        destruct (nested_tp_produce checks s) as [[s1 [[ys|f]|e]]| |]; cbn; (split; [reflexivity|]); try discriminate;
          intros s' x Hx; inversion Hx; subst; cbn; try discriminate. intros _. exact (H1 _ _ eq_refl).
      + cbn. unfold inv_forward. cbn. rewrite <- Hch in *.
        assert (H0 : ok s 0). { intros Ht. congruence. }
        destruct (nested_tp_produce_erases H0) as [E1 H1]. rewrite E1.
        destruct (nested_tp_produce checks s) as [[s1 r]| |]; cbn; (split; [reflexivity|]); try discriminate.
        intros s' x Hx _ Ht. congruence.
    - intros [s b j] H. unfold outer_tp_ok, outer_tp_erase in *. cbn [inv_inner inv_active inv_exposed] in *.
      destruct checks eqn:Hch.
      + cbn. unfold invariant_slurp, inv_check. cbn. destruct b; [|split; [reflexivity|discriminate]].
        cbn. rewrite <- Hch in *. destruct (nested_tp_slurp_erases (H eq_refl)) as [E1 H1]. rewrite E1.
        destruct (nested_tp_slurp s) as [[s1 [u|e]]| |]; cbn; (split; [reflexivity|]); try discriminate;
          intros s' x Hx; inversion Hx; subst; cbn; try discriminate. intros _. exact (H1 _ _ eq_refl).
      + cbn. unfold inv_forward. cbn. rewrite <- Hch in *.
        assert (H0 : ok s 0). { intros Ht. congruence. }
        destruct (nested_tp_slurp_erases H0) as [E1 H1]. rewrite E1.
        destruct (nested_tp_slurp s) as [[s1 r]| |]; cbn; (split; [reflexivity|]); try discriminate.
        intros s' x Hx _ Ht. congruence.
    - exact Hex.
    - exact Hco.
    - intros buf. pose proof (@sim_default_bulk_produce _ _ _ _ _ _ _ _ _ _ _ Hex Hco buf) as HB. destruct checks; exact HB.
  Qed.

  Lemma outer_tp_ok_new : forall items last sizes pattern,
    outer_tp_ok (invariant_new (nested_tp_build items last sizes pattern)).
  Proof. intros items last sizes pattern _ _. cbn. auto. Qed.
End NestedP.

Section NestedC.
  Context {T F E : Type} (checks : bool) (default : T).
  Notation state := (nested_tc_state T F E).
  Notation ok := (fun (s : state) (j : nat) => inner_ok checks (ntc_inner s) j).

  Lemma ntc_yield : forall (s : state), tc_maybe_yield (tc_erase s) =
    match ntc_maybe_yield s with Ret s' => Ret (tc_erase s') | Panic => Panic | NoFuel => NoFuel end.
  Proof. intros s. unfold tc_maybe_yield, ntc_maybe_yield. cbn. destruct (maybe_yield (ntc_yielder s)); reflexivity. Qed.

  Lemma ntc_yield_inner : forall (s s' : state), ntc_maybe_yield s = Ret s' -> ntc_inner s' = ntc_inner s.
  Proof.
    intros s s' H. unfold ntc_maybe_yield in H. destruct (maybe_yield (ntc_yielder s)); inversion H; subst. reflexivity.
  Qed.

  Lemma ntc_check_error_erases : forall s j, ok s j ->
    erases tc_erase ok j (ntc_check_error s) (tc_check_error (tc_erase s)) (fun _ => j).
  Proof.
    intros s j H. unfold erases, tc_check_error, ntc_check_error. cbn [tc_erase tc_left tc_error].
    destruct (ntc_left s =? 0).
    - destruct (ntc_error s) as [e|]; cbn; (split; [reflexivity|]); try discriminate.
      intros s' x Hx; inversion Hx; subst; exact H.
    - split; [reflexivity|]. intros s' x Hx; inversion Hx; subst; exact H.
  Qed.

  (** The beginning that all methods share. *)
  Definition ntc_start {X} (s : state) (k : state -> outcome (state * res X E)) : outcome (state * res X E) :=
    let* s := ntc_maybe_yield s in
    let* (s, e) := ntc_check_error s in
    match e with Some err => Ret (s, Err err) | None => k s end.
  Definition tc_start {X} (s : test_consumer_state T F E)
      (k : test_consumer_state T F E -> outcome (test_consumer_state T F E * res X E))
    : outcome (test_consumer_state T F E * res X E) :=
    let* s := tc_maybe_yield s in
    let* (s, e) := tc_check_error s in
    match e with Some err => Ret (s, Err err) | None => k s end.

  Lemma start_erases : forall X (k : state -> outcome (state * res X E)) k0 j', forall s j, ok s j ->
    (forall e : E, j' (Err e) <= j) ->
    (forall s, ok s j -> erases tc_erase ok j (k s) (k0 (tc_erase s)) j') ->
    erases tc_erase ok j (ntc_start s k) (tc_start (tc_erase s) k0) j'.
  Proof.
    intros X k k0 j' s j H He Hk. unfold ntc_start, tc_start, erases. rewrite ntc_yield.
    destruct (ntc_maybe_yield s) as [s1| |] eqn:Ey; cbn [bind state_map]; [|split; [reflexivity|discriminate]..].
    cbv beta in H. rewrite <- (ntc_yield_inner _ Ey) in H. clear Ey s.
    destruct (ntc_check_error_erases H) as [Ec Hc]; rewrite Ec; clear Ec H;
    destruct (ntc_check_error s1) as [[s2 [e|]]| |]; cbn [bind state_map];
    try (split; [reflexivity|discriminate]).
    - split; [reflexivity|]. intros s' x Hx; inversion Hx; subst. intros Ht.
      destruct (Hc _ _ eq_refl Ht) as [H1 H2]. split; [exact H1|]. specialize (He e). lia.
    - exact (Hk s2 (Hc _ _ eq_refl)).
  Qed.

  Ltac open_inner s H :=
    destruct s as [[iv b k] fi er le sz yi]; unfold inner_ok in *;
    cbn [ntc_inner ntc_fin ntc_error ntc_left ntc_sizes ntc_yielder inv_inner inv_active inv_exposed
         tc_erase tc_inner tc_fin tc_error tc_left tc_sizes tc_yielder] in *;
    destruct checks;
    [destruct (H eq_refl) as [-> Hj]|].

  Lemma nested_tc_consume_erases : forall x s j, ok s j ->
    erases tc_erase ok j (nested_tc_consume checks default x s) (test_consumer_consume default x (tc_erase s)) (fun _ => j).
  Proof.
    intros x s j H. apply (@start_erases unit _ _ (fun _ => j) s j H); [auto|]. clear s H. intros s H. unfold erases.
    open_inner s H; cbn; unfold invariant_consume, inv_check, inv_forward; cbn;
      destruct (into_vec_consume default x iv) as [[iv1 [[]|[]]]| |]; cbn; try (split; [reflexivity|discriminate]);
      destruct (csub le 1); cbn; (split; [reflexivity|]); try discriminate.
    intros s' r Hx _. inversion Hx; subst. cbn. auto.
  Qed.

  Lemma nested_tc_flush_erases : forall s j, ok s j ->
    erases tc_erase ok j (nested_tc_flush checks default s) (test_consumer_flush (tc_erase s)) (fun _ => j).
  Proof.
    intros s j H. apply (@start_erases unit _ _ (fun _ => j) s j H); [auto|]. clear s H. intros s H. unfold erases.
    open_inner s H; cbn; unfold invariant_flush, inv_check, inv_forward; cbn; (split; [reflexivity|]); try discriminate.
    intros s' r Hx _. inversion Hx; subst. cbn. auto.
  Qed.

  Lemma nested_tc_close_erases : forall f s j, ok s j ->
    test_consumer_close f (tc_erase s) = state_map tc_erase (nested_tc_close checks default f s).
  Proof.
    intros f s j H. unfold test_consumer_close, nested_tc_close. rewrite ntc_yield.
    destruct (ntc_maybe_yield s) as [s1| |] eqn:Ey; cbn [bind state_map]; [|reflexivity..].
    cbv beta in H. rewrite <- (ntc_yield_inner _ Ey) in H. clear Ey s.
    destruct (ntc_check_error_erases H) as [Ec Hc]; rewrite Ec; clear Ec H;
    destruct (ntc_check_error s1) as [[s2 [e|]]| |]; cbn [bind state_map]; try reflexivity.
    pose proof (Hc _ _ eq_refl) as H. clear Hc s1. rename s2 into s. cbv beta in H.
    open_inner s H; cbn; unfold invariant_close, inv_check, inv_forward; cbn; reflexivity.
  Qed.

  Lemma nested_tc_consume_slots_erases : forall n s j, ok s j -> (checks = true -> n <= j) ->
    erases tc_erase ok j (nested_tc_consume_slots checks default n s) (test_consumer_consume_slots n (tc_erase s)) (fun _ => j - n).
  Proof.
    intros n s j H Hn. apply (@start_erases unit _ _ (fun _ => j - n) s j H); [intros; lia|]. clear s H. intros s H. unfold erases.
    open_inner s H; cbn; unfold invariant_consume_slots, inv_check, inv_forward; cbn.
    - specialize (Hn eq_refl). destruct (Nat.ltb_spec k n); [lia|]. rewrite (@csub_ok k n) by lia. cbn.
      destruct (csub le n); cbn; (split; [reflexivity|]); try discriminate.
      intros s' r Hx _. inversion Hx; subst. cbn. split; [reflexivity|lia].
    - destruct (csub le n); cbn; (split; [reflexivity|]); discriminate.
  Qed.

  Lemma ntc_grow_erases : forall fuel min_len i,
    tc_grow default fuel min_len (inv_inner i) = end_map (@inv_inner _) (ntc_grow default fuel min_len i) /\
    (forall i', ntc_grow default fuel min_len i = Ret i' -> inv_active i' = inv_active i /\ inv_exposed i' = inv_exposed i).
  Proof.
    induction fuel as [|fuel IH]; intros min_len i; cbn [tc_grow ntc_grow]; [split; [reflexivity|discriminate]|].
    destruct (into_vec_remaining_slots (inv_inner i)) as [slots| |]; cbn [bind]; try (split; [reflexivity|discriminate]).
    destruct (slots <? min_len); [|split; [reflexivity|]; intros i' Hi; inversion Hi; subst; auto].
    apply (IH min_len (mk_invariant (into_vec_make_space_even_if_not_needed default (inv_inner i)) (inv_active i) (inv_exposed i))).
  Qed.

  Lemma min_opt_le : forall n o, min_opt n o <= n.
  Proof. intros n [m|]; cbn; lia. Qed.

  Lemma nested_tc_expose_erases : forall s j, ok s j ->
    erases tc_erase ok j (nested_tc_expose checks default s) (test_consumer_expose default (tc_erase s))
      (fun r => match r with Ok n => n | Err _ => j end).
  Proof.
    intros s j H. apply (@start_erases nat _ _ (fun r => match r with Ok n => n | Err _ => j end) s j H); [auto|]. clear s H.
    intros s H. unfold erases. cbn [tc_erase tc_sizes].
    assert (Hsz : exists o, (match ntc_sizes s with
      | None => Ret (None, None)
      | Some sz => let* (n, sz) := next_size sz in Ret (Some n, Some sz) end) = o) by eauto.
    destruct Hsz as [o Ho]. rewrite Ho. destruct o as [[max sz]| |]; cbn [bind]; try (split; [reflexivity|discriminate]). clear Ho.
    generalize (min_opt 2048 max). intros m. cbn [tc_erase tc_inner].
    destruct (ntc_grow_erases (m + 1) m (ntc_inner s)) as [E1 H1]. rewrite E1.
    destruct (ntc_grow default (m + 1) m (ntc_inner s)) as [i| |]; cbn [end_map bind]; try (split; [reflexivity|discriminate]).
    destruct (H1 i eq_refl) as [H2 H3]. clear E1 H1. cbv beta in H. unfold inner_ok in H. rewrite <- H2, <- H3 in H. clear H2 H3.
    destruct i as [iv b k]. cbn [inv_inner inv_active inv_exposed] in *.
    pose proof (fun n => min_opt_le n max) as Hm.
    destruct checks.
    - destruct (H eq_refl) as [-> Hj]. cbn - [Nat.min min_opt]. unfold invariant_expose_slots, inv_check. cbn - [Nat.min min_opt].
      destruct (into_vec_expose default iv) as [[iv1 [n|[]]]| |]; cbn - [Nat.min min_opt]; try (split; [reflexivity|discriminate]).
      split; [reflexivity|]. intros s' x Hx _. inversion Hx; subst. cbn - [Nat.min min_opt]. split; [reflexivity|]. specialize (Hm n). lia.
    - cbn - [Nat.min min_opt]. unfold inv_forward. cbn - [Nat.min min_opt].
      destruct (into_vec_expose default iv) as [[iv1 [n|[]]]| |]; cbn - [Nat.min min_opt]; try (split; [reflexivity|discriminate]).
  Qed.

  Lemma nested_tc_write_erases : forall ys (s : state),
    test_consumer_write ys (tc_erase s) = tc_erase (nested_tc_write checks default ys s).
  Proof. intros ys s. destruct checks; reflexivity. Qed.

  (** With the outer checker around it. *)
  Definition outer_tc_erase (s : invariant state) : invariant (test_consumer_state T F E) :=
    mk_invariant (tc_erase (inv_inner s)) (inv_active s) (inv_exposed s).
  Definition outer_tc_ok (s : invariant state) : Prop :=
    inv_active s = true -> ok (inv_inner s) (inv_exposed s).

  Lemma public_test_consumer_sim_of : forall c, c = checks ->
    c_sim outer_tc_ok outer_tc_erase (public_consumer c (nested_test_consumer checks default))
      (public_consumer c (@test_consumer T F E default)).
  Proof.
    intros c Hc. set (outer := public_consumer c (nested_test_consumer checks default)).
    set (plain := public_consumer c (@test_consumer T F E default)).
    assert (Hoff : checks = false -> forall s j, ok s j) by (intros Ht s j Ht'; congruence).
    assert (Hend : checks = false -> forall s, outer_tc_ok s) by (intros Ht s _ Ht'; congruence).
    assert (Hex : sim outer_tc_ok outer_tc_erase (c_expose outer) (c_expose plain)).
    { intros [s b j] H. destruct c; symmetry in Hc.
      - unfold outer_tc_ok, outer_tc_erase in *. cbn in H |- *. unfold invariant_expose_slots, inv_check. cbn.
        destruct b; [|split; [reflexivity|discriminate]]. cbn.
        destruct (nested_tc_expose_erases (H eq_refl)) as [E1 H1]. rewrite E1.
        destruct (nested_tc_expose checks default s) as [[s1 [n|e]]| |]; cbn; (split; [reflexivity|]); try discriminate;
          intros s' x Hx; inversion Hx; subst; cbn; try discriminate. intros _. exact (H1 _ _ eq_refl).
      - split; [|intros; now apply Hend]. cbn. unfold inv_forward, outer_tc_erase. cbn.
        destruct (nested_tc_expose_erases (Hoff Hc s 0)) as [E1 _]. rewrite E1.
        destruct (nested_tc_expose checks default s) as [[s1 r]| |]; reflexivity. }
    assert (Hco : forall n, sim outer_tc_ok outer_tc_erase (c_consume_slots outer n) (c_consume_slots plain n)).
    { intros n [s b j] H. destruct c; symmetry in Hc.
      - unfold outer_tc_ok, outer_tc_erase in *. cbn in H |- *. unfold invariant_consume_slots, inv_check. cbn.
        destruct b; [|split; [reflexivity|discriminate]]. cbn.
        destruct (Nat.ltb_spec j n); [split; [reflexivity|discriminate]|]. rewrite csub_ok by lia. cbn.
        assert (Hn : checks = true -> n <= j) by auto.
        destruct (@nested_tc_consume_slots_erases n s j (H eq_refl) Hn) as [E1 H1]. rewrite E1.
        destruct (nested_tc_consume_slots checks default n s) as [[s1 r]| |]; cbn; (split; [reflexivity|]); try discriminate;
          intros s' x Hx; inversion Hx; subst; cbn; try discriminate. intros _. exact (H1 _ _ eq_refl).
      - split; [|intros; now apply Hend]. cbn. unfold inv_forward, outer_tc_erase. cbn.
        assert (Hn : checks = true -> n <= 0) by congruence.
        destruct (@nested_tc_consume_slots_erases n s 0 (Hoff Hc s 0) Hn) as [E1 _]. rewrite E1.
        destruct (nested_tc_consume_slots checks default n s) as [[s1 r]| |]; reflexivity. }
    assert (Hwr : forall ys s, outer_tc_ok s ->
      c_write plain ys (outer_tc_erase s) = outer_tc_erase (c_write outer ys s) /\ outer_tc_ok (c_write outer ys s)).
    { intros ys [s b j] H. unfold outer_tc_ok, outer_tc_erase, inner_ok in *. cbn [inv_inner inv_active inv_exposed] in *.
      pose proof (nested_tc_write_erases ys s) as HW. revert HW H. subst outer plain. destruct c; cbn; intros HW H; rewrite <- HW; split; auto; intros Hb Hch; destruct (H Hb Hch); destruct checks; auto. }
    constructor; auto.
    - intros item [s b j] H. destruct c; symmetry in Hc.
      + unfold outer_tc_ok, outer_tc_erase in *. cbn in H |- *. unfold invariant_consume, inv_check. cbn.
        destruct b; [|split; [reflexivity|discriminate]]. cbn.
        destruct (nested_tc_consume_erases item (H eq_refl)) as [E1 H1]. rewrite E1.
        destruct (nested_tc_consume checks default item s) as [[s1 [n|e]]| |]; cbn; (split; [reflexivity|]); try discriminate;
          intros s' x Hx; inversion Hx; subst; cbn; try discriminate. intros _. exact (H1 _ _ eq_refl).
      + split; [|intros; now apply Hend]. cbn. unfold inv_forward, outer_tc_erase. cbn.
        destruct (nested_tc_consume_erases item (Hoff Hc s 0)) as [E1 _]. rewrite E1.
        destruct (nested_tc_consume checks default item s) as [[s1 r]| |]; reflexivity.
    - intros f [s b j] H. destruct c; symmetry in Hc.
      + unfold outer_tc_ok, outer_tc_erase in *. cbn in H |- *. unfold invariant_close, inv_check. cbn.
        destruct b; [|split; [reflexivity|discriminate]]. cbn.
        rewrite (@nested_tc_close_erases f s j (H eq_refl)).
        destruct (nested_tc_close checks default f s) as [[s1 [n|e]]| |]; cbn; (split; [reflexivity|]); try discriminate;
          intros s' x Hx; inversion Hx; subst; cbn; try discriminate.
      + split; [|intros; now apply Hend]. cbn. unfold inv_forward, outer_tc_erase. cbn.
        rewrite (@nested_tc_close_erases f s 0 (Hoff Hc s 0)).
        destruct (nested_tc_close checks default f s) as [[s1 r]| |]; reflexivity.
    - intros [s b j] H. destruct c; symmetry in Hc.
      + unfold outer_tc_ok, outer_tc_erase in *. cbn in H |- *. unfold invariant_flush, inv_check. cbn.
        destruct b; [|split; [reflexivity|discriminate]]. cbn.
        destruct (nested_tc_flush_erases (H eq_refl)) as [E1 H1]. rewrite E1.
        destruct (nested_tc_flush checks default s) as [[s1 [n|e]]| |]; cbn; (split; [reflexivity|]); try discriminate;
          intros s' x Hx; inversion Hx; subst; cbn; try discriminate. intros _. exact (H1 _ _ eq_refl).
      + split; [|intros; now apply Hend]. cbn. unfold inv_forward, outer_tc_erase. cbn.
        destruct (nested_tc_flush_erases (Hoff Hc s 0)) as [E1 _]. rewrite E1.
        destruct (nested_tc_flush checks default s) as [[s1 r]| |]; reflexivity.
    - intros buf. pose proof (@sim_default_bulk_consume _ _ _ _ _ _ _ _ _ _ _ _ Hex Hwr Hco buf) as HB. destruct c; exact HB.
  Qed.

  Lemma public_test_consumer_sim :
    c_sim outer_tc_ok outer_tc_erase (public_consumer checks (nested_test_consumer checks default))
      (public_consumer checks (@test_consumer T F E default)).
  Proof. now apply public_test_consumer_sim_of. Qed.

  Lemma outer_tc_ok_new : forall error n sizes pattern,
    outer_tc_ok (invariant_new (nested_tc_build error n sizes pattern)).
  Proof. intros error n sizes pattern _ _. cbn. auto. Qed.
End NestedC.

(** ** The exported test producer and test consumer *)
Lemma public_test_producer_history_iff :
  forall (T F E : Type) checks (items : list T) (last : res F E) sizes pattern h i a',
  match sizes with Some l => Forall (fun n => 1 <= n) l | None => True end ->
  (p_history (@test_producer T F E) (test_producer_build items last sizes pattern) (PActive items last 0) h i a' <->
   exists s', p_history (public_producer checks (nested_test_producer checks))
     (invariant_new (nested_tp_build items last sizes pattern)) (PActive items last 0) h s' a' /\
     tp_erase (inv_inner s') = i).
Proof.
  intros T F E checks items last sizes pattern h i a' Hs.
  pose proof (@tp_rel_build T F E items last sizes pattern Hs) as HR.
  assert (L : lawful_producer_core (@test_producer T F E) tp_rel tp_end) by apply test_producer_core.
  split.
  - intros HH.
    destruct (proj1 (@public_history_iff _ _ _ _ (@test_producer T F E) _ _ (fun _ _ => eq_refl) checks h _ _ _ i a' L
      (or_introl test_producer_slurp_lawful) HR) HH) as (s0 & H0 & <-).
    destruct (@p_sim_history_conv _ _ _ _ _ _ _ _ _ (public_test_producer_sim checks) _ _ _ _ _ H0
      (invariant_new (nested_tp_build items last sizes pattern)) eq_refl (@outer_tp_ok_new _ _ _ _ _ _ _ _)) as (s' & H1 & <-).
    exists s'. split; [exact H1|reflexivity].
  - intros (s' & HH & <-).
    pose proof (@p_sim_history _ _ _ _ _ _ _ _ _ (public_test_producer_sim checks) _ _ _ _ _ (@outer_tp_ok_new _ _ _ checks items last sizes pattern) HH) as H0.
    exact (@public_history _ _ _ _ (@test_producer T F E) (fun _ _ => eq_refl) checks _ _ _ _ _ H0).
Qed.

Lemma public_test_producer_conforms :
  forall (T F E : Type) checks (items : list T) (last : res F E) sizes pattern ops,
  match sizes with Some l => Forall (fun n => 1 <= n) l | None => True end ->
  p_conforms (public_producer checks (nested_test_producer checks)) ops
    (invariant_new (nested_tp_build items last sizes pattern)) (PActive items last 0).
Proof.
  intros T F E checks items last sizes pattern ops Hs.
  apply (@p_sim_conforms _ _ _ _ _ _ _ _ _ (public_test_producer_sim checks)); [apply outer_tp_ok_new|].
  change (outer_tp_erase _) with (invariant_new (@test_producer_build T F E items last sizes pattern)).
  apply (@public_conforms _ _ _ _ _ tp_rel tp_end).
  - apply test_producer_core.
  - left. apply test_producer_slurp_lawful.
  - now apply tp_rel_build.
Qed.

Lemma public_test_consumer_history_iff :
  forall (T F E : Type) checks (d : T) (error : E) n sizes pattern h i a',
  match sizes with Some l => Forall (fun n => 1 <= n) l | None => True end ->
  (c_history (@test_consumer T F E d) (failing_machine T F error)
     (test_consumer_build error n sizes pattern) (CActive (mk_tstate [] None n false) 0 []) h i a' <->
   exists s', c_history (public_consumer checks (nested_test_consumer checks d)) (failing_machine T F error)
     (invariant_new (nested_tc_build error n sizes pattern)) (CActive (mk_tstate [] None n false) 0 []) h s' a' /\
     tc_erase (inv_inner s') = i).
Proof.
  intros T F E checks d error n sizes pattern h i a' Hs.
  pose proof (@tc_rel_build T F E error n sizes pattern Hs) as HR.
  assert (L : lawful_consumer_core (@test_consumer T F E d) (failing_machine T F error) (tc_rel error) (tc_end error)) by apply test_consumer_core.
  split.
  - intros HH.
    destruct (proj1 (@publicc_history_iff _ _ _ _ _ (@test_consumer T F E d) _ _ _ (fun _ _ => eq_refl) d checks h _ _ i a' L HR) HH) as (s0 & H0 & <-).
    destruct (@c_sim_history_conv _ _ _ _ _ _ _ _ _ _ _ (public_test_consumer_sim checks d) _ _ _ _ _ H0
      (invariant_new (nested_tc_build error n sizes pattern)) eq_refl (@outer_tc_ok_new _ _ _ _ _ _ _ _)) as (s' & H1 & <-).
    exists s'. split; [exact H1|reflexivity].
  - intros (s' & HH & <-).
    pose proof (@c_sim_history _ _ _ _ _ _ _ _ _ _ _ (public_test_consumer_sim checks d) _ _ _ _ _ (@outer_tc_ok_new _ _ _ checks error n sizes pattern) HH) as H0.
    exact (@publicc_history _ _ _ _ _ (@test_consumer T F E d) _ (fun _ _ => eq_refl) checks _ _ _ _ _ H0).
Qed.

Lemma public_test_consumer_conforms :
  forall (T F E : Type) checks (d : T) (error : E) n sizes pattern ops,
  match sizes with Some l => Forall (fun n => 1 <= n) l | None => True end ->
  c_conforms (public_consumer checks (nested_test_consumer checks d)) (failing_machine T F error) ops
    (invariant_new (nested_tc_build error n sizes pattern)) (CActive (mk_tstate [] None n false) 0 []).
Proof.
  intros T F E checks d error n sizes pattern ops Hs.
  apply (@c_sim_conforms _ _ _ _ _ _ _ _ _ _ _ (public_test_consumer_sim checks d)); [apply outer_tc_ok_new|].
  change (outer_tc_erase _) with (invariant_new (@test_consumer_build T F E error n sizes pattern)).
  apply (@publicc_conforms _ _ _ _ _ _ _ (tc_rel error) (tc_end error)).
  - apply test_consumer_core.
  - now apply tc_rel_build.
Qed.

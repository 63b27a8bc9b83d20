(** Proofs: dropped futures cause no panics. *)
From Coq Require Import Bool List Arith Lia.
From Coq.Init Require Import Byte.
From Verif Require Import Prelude ListFacts QueueModel QueueSpec QueueProofs Traits BasicModel AdaptorModel ScramblerModel CodecModel EndianModel TowerModel
  Contracts AdaptorSpec BasicSpec BasicProofs ScramblerProofs RulesSpec SafeSpec SafeProofs AsyncModel AsyncAdaptorModel AsyncTowerModel AsyncSpec AsyncProofs
  AsyncAdaptorProofs AsyncSuspendProofs AsyncMergeModel AsyncMergeSpec AbideSpec HardySpec.
Import ListNotations.
Set Implicit Arguments.

(** ** All polls of a future *)

(** [ok_polls D Q f s]: polling [f] from [s] on does not panic, leads to states with [D] while it is pending, and to [Q] when it is ready. *)
Fixpoint ok_polls {S X} (D : S -> Prop) (Q : S -> X -> Prop) (f : fut S X) (s : S) : Prop :=
  match f with
  | Fut p =>
      match p s with
      | Ret (s', Ready x) => Q s' x
      | Ret (s', Pending _ f') => D s' /\ ok_polls D Q f' s'
      | Panic => False
      | NoFuel => True
      end
  end.

Section OkPolls.
  Context {S X : Type}.

  Lemma op_mono : forall (D D' : S -> Prop) (Q Q' : S -> X -> Prop), (forall s, D s -> D' s) -> (forall s x, Q s x -> Q' s x) ->
    forall f s, ok_polls D Q f s -> ok_polls D' Q' f s.
  Proof.
    intros D D' Q Q' HD HQ. fix IH 1. intros [p] s. cbn. destruct (p s) as [[s' [x|w f]]| |]; auto. intros [H1 H2]. split; [exact (HD _ H1)|]. apply IH. exact H2.
  Qed.

  Lemma op_endures : forall (D : S -> Prop) (Q : S -> X -> Prop) f s, endures D Q f s <-> D s /\ ok_polls D Q f s.
  Proof.
    intros D Q f s. split.
    - intros H. split; [exact (H 0)|]. revert f s H. fix IH 1. intros [p] s H. cbn. pose proof (H 1) as H1. cbn in H1.
      destruct (p s) as [[s' [x|w f]]| |] eqn:Ep; cbn in H1; auto. split; [exact H1|]. apply IH. intros n.
      pose proof (H (Datatypes.S n)) as H2. cbn in H2. rewrite Ep in H2. exact H2.
    - intros [H0 H] n. revert f s H0 H. induction n as [|n IH]; intros [p] s H0 H; cbn in *; [exact H0|].
      destruct (p s) as [[s' [x|w f]]| |]; cbn; auto. destruct H as [H1 H2]. exact (IH _ _ H1 H2).
  Qed.

  Lemma op_run : forall (D : S -> Prop) (Q : S -> X -> Prop) f s,
    ok_polls D Q f s <-> (forall s', In s' (suspended f s) -> D s') /\ safely (fun x => Q (fst x) (snd x)) (run f s).
  Proof.
    intros D Q. fix IH 1. intros [p] s. cbn. destruct (p s) as [[s' [x|w f]]| |]; cbn.
    - split; [intros H; split; [intros _ []|exact H]|intros [_ H]; exact H].
    - rewrite IH. split.
      + intros (H1 & H2 & H3). split; [|exact H3]. intros t [<-|Ht]; auto.
      + intros (H1 & H2). split; [apply H1; now left|]. split; [|exact H2]. intros t Ht. apply H1. now right.
    - split; [intros []|intros [_ []]].
    - split; auto. intros _. split; [intros _ []|exact Logic.I].
  Qed.

  Lemma op_eq : forall (D : S -> Prop) (Q : S -> X -> Prop) f s, ok_polls D Q f s ->
    ok_polls D (fun s' x => Q s' x /\ run f s = Ret (s', x)) f s.
  Proof.
    intros D Q f s H. apply op_run. apply op_run in H. destruct H as [H1 H2]. split; [exact H1|].
    destruct (run f s) as [[s' x]| |]; cbn in *; auto.
  Qed.
End OkPolls.

Section Awaits.
  Context {S Y : Type}.
  Variables (D : S -> Prop) (Q : S -> Y -> Prop).

  Lemma op_await : forall X (f : fut S X) (k : X -> fut S Y) s,
    ok_polls D (fun s' x => ok_polls D Q (k x) s') f s -> ok_polls D Q (await f k) s.
  Proof.
    intros X. fix IH 1. intros [p] k s. cbn. destruct (p s) as [[s' [x|w f]]| |]; cbn; auto.
    - intros H. destruct (k x) as [q]. cbn. exact H.
    - intros [H1 H2]. split; [exact H1|]. apply IH. exact H2.
  Qed.

  Lemma op_await_ret : forall X (f : fut S X) (g : X -> Y) s,
    ok_polls D Q (await f (fun x => ret (g x))) s -> ok_polls D (fun s' x => Q s' (g x)) f s.
  Proof.
    intros X. fix IH 1. intros [p] g s. cbn. destruct (p s) as [[s' [x|w f]]| |]; cbn; auto.
    intros [H1 H2]. split; [exact H1|]. apply IH. exact H2.
  Qed.

  Lemma op_await_ret_eq : forall X (f : fut S X) (k : X -> fut S Y) (g : X -> Y) s, (forall x, k x = ret (g x)) ->
    ok_polls D Q (await f k) s -> ok_polls D (fun s' x => Q s' (g x)) f s.
  Proof.
    intros X f k g s Hk. revert f s. fix IH 1. intros [p] s. cbn. destruct (p s) as [[s' [x|w f]]| |]; cbn; auto.
    - rewrite Hk. cbn. auto.
    - intros [H1 H2]. split; [exact H1|]. apply IH. exact H2.
  Qed.

  Lemma op_sync_k : forall X (g : S -> outcome (S * X)) (k : X -> fut S Y) s,
    safely (fun x => ok_polls D Q (k (snd x)) (fst x)) (g s) -> ok_polls D Q (await (sync g) k) s.
  Proof. intros X g k s H. apply op_await. cbn. destruct (g s) as [[s' x]| |]; exact H. Qed.
  Lemma op_attempt_k : forall X (o : outcome X) (k : X -> fut S Y) s,
    safely (fun x => ok_polls D Q (k x) s) o -> ok_polls D Q (await (attempt o) k) s.
  Proof. intros X o k s H. apply op_sync_k. destruct o; exact H. Qed.
  Lemma op_sync : forall (g : S -> outcome (S * Y)) s, safely (fun x => Q (fst x) (snd x)) (g s) -> ok_polls D Q (sync g) s.
  Proof. intros g s H. cbn. destruct (g s) as [[s' x]| |]; exact H. Qed.
  Lemma op_ret : forall (y : Y) s, Q s y -> ok_polls D Q (ret y) s.
  Proof. intros y s H. exact H. Qed.
  Lemma op_get_k : forall (k : S -> fut S Y) s, ok_polls D Q (k s) s -> ok_polls D Q (await get k) s.
  Proof. intros k s H. apply op_await. exact H. Qed.
  Lemma op_put_k : forall s' (k : unit -> fut S Y) s, ok_polls D Q (k tt) s' -> ok_polls D Q (await (put s') k) s.
  Proof. intros s' k s H. apply op_await. exact H. Qed.
  Lemma op_out_of_fuel : forall s, ok_polls D Q out_of_fuel s.
  Proof. intros s. exact Logic.I. Qed.
  Lemma op_k : forall X D0 (Q0 : S -> X -> Prop) (f : fut S X) (k : X -> fut S Y) s,
    ok_polls D0 Q0 f s -> (forall s', D0 s' -> D s') -> (forall s' x, Q0 s' x -> ok_polls D Q (k x) s') -> ok_polls D Q (await f k) s.
  Proof. intros X D0 Q0 f k s H H1 H2. apply op_await. eapply op_mono; [exact H1|exact H2|exact H]. Qed.
End Awaits.

Section Within.
  Context {S I : Type} (field : S -> I) (set : I -> S -> S).
  Hypothesis field_set : forall i s, field (set i s) = i.
  Hypothesis set_set : forall i j s, set j (set i s) = set j s.

  Lemma op_within : forall X (D0 : I -> Prop) (Q0 : I -> X -> Prop) (D : S -> Prop) (Q : S -> X -> Prop) f s,
    ok_polls D0 Q0 f (field s) -> (forall i, D0 i -> D (set i s)) -> (forall i x, Q0 i x -> Q (set i s) x) ->
    ok_polls D Q (within field set f) s.
  Proof.
    intros X D0 Q0 D Q f s H HD HQ. revert f s H HD HQ. fix IH 1. intros [p] s. cbn. destruct (p (field s)) as [[i [x|w f]]| |]; cbn; auto.
    intros [H1 H2] HD HQ. split; [auto|]. apply IH.
    - rewrite field_set. exact H2.
    - intros j Hj. rewrite set_set. auto.
    - intros j x Hj. rewrite set_set. auto.
  Qed.
  Lemma op_within_k : forall X Y (D0 : I -> Prop) (Q0 : I -> X -> Prop) (D : S -> Prop) (Q : S -> Y -> Prop) f k s,
    ok_polls D0 Q0 f (field s) -> (forall i, D0 i -> D (set i s)) -> (forall i x, Q0 i x -> ok_polls D Q (k x) (set i s)) ->
    ok_polls D Q (await (within field set f) k) s.
  Proof. intros X Y D0 Q0 D Q f k s H HD HQ. apply op_await. eapply op_within; [exact H|exact HD|exact HQ]. Qed.
End Within.

(** ** [hardy] as a coinductive notion *)
Section Hardy.
  Context {S M O A : Type} (may : M -> O -> bool) (saw : M -> O -> A -> M) (gave_up : M -> O -> M) (future : O -> fut S A).

  Lemma hardy_step : forall s m o, hardy may saw gave_up future s m -> may m o = true ->
    hardy may saw gave_up future s (gave_up m o) /\
    ok_polls (fun s' => hardy may saw gave_up future s' (gave_up m o)) (fun s' a => hardy may saw gave_up future s' (saw m o a)) (future o) s.
  Proof.
    intros s m o H Ho. refine (proj1 (op_endures (fun s' => hardy may saw gave_up future s' (gave_up m o)) (fun s' a => hardy may saw gave_up future s' (saw m o a)) (future o) s) _). intros n. pose proof (@calm_step _ _ _ _ _ _ _ _ _ (o, n) H Ho) as Hs. cbn in Hs.
    destruct (polls n (future o) s) as [[s' [a|w f]]| |]; exact Hs.
  Qed.

  Lemma hardy_intro : forall (Inv : S -> M -> Prop),
    (forall s m o, Inv s m -> may m o = true ->
       Inv s (gave_up m o) /\ ok_polls (fun s' => Inv s' (gave_up m o)) (fun s' a => Inv s' (saw m o a)) (future o) s) ->
    forall s m, Inv s m -> hardy may saw gave_up future s m.
  Proof.
    intros Inv H s m HI. apply calm_intro with (Inv := Inv); [|exact HI]. clear s m HI. intros s m [o n] HI Ho. cbn [fst snd] in *.
    pose proof (proj2 (op_endures _ _ _ _) (H _ _ _ HI Ho) n) as He. destruct (polls n (future o) s) as [[s' [a|w f]]| |]; exact He.
  Qed.
End Hardy.

(** ** Single calls *)
Section Calls.
  Context {S T F E : Type}.

  Definition hardy_p (slurps : bool) (P : a_bulk_producer S T F E) (s : S) (k : nat) : Prop :=
    hardy (p_calls slurps) (@p_saw T F E) p_gave_up (ap_future P) s (mk_pmon false k).
  Definition hardy_c (C : a_bulk_consumer S T F E) (s : S) (k w : nat) : Prop :=
    hardy (@c_calls T F) (@c_saw T F E) c_gave_up (ac_future C) s (mk_cmon false k w).

  Section P.
    Variables (sl : bool) (P : a_bulk_producer S T F E).
    Notation D := (fun s => hardy_p sl P s 0).

    Lemma hardy_p_forget : forall s k, hardy_p sl P s k -> hardy_p sl P s 0.
    Proof. intros s k H. exact (proj1 (@hardy_step _ _ _ _ _ _ _ _ _ _ PProduce H eq_refl)). Qed.
    Lemma hardy_p_less : forall s k k', hardy_p sl P s k' -> k <= k' -> hardy_p sl P s k.
    Proof.
      intros s k k' H Hk.
      eapply calm_mono with (le := fun m m' => pm_over m' = pm_over m /\ pm_shown m <= pm_shown m') (m' := mk_pmon false k'); [|cbn; auto|exact H].
      intros [o1 k1] [o2 k2] [o n0] [E1 E2] Ho; cbn in E1, E2; subst o2. cbn [fst] in *. split.
      - unfold p_calls, p_may in *. cbn [pm_over pm_shown] in *. destruct o; auto.
        destruct (n <=? k1) eqn:El; [|rewrite andb_false_r in Ho; discriminate].
        apply Nat.leb_le in El. replace (n <=? k2) with true; [exact Ho|]. symmetry. apply Nat.leb_le. lia.
      - intros [a|]; [|cbn; auto]. cbn. split; [reflexivity|]. destruct o, a as [r|r|[[ys|f]|e]|b r]; cbn; lia.
    Qed.

    Lemma hardy_produce : forall s k, hardy_p sl P s k ->
      ok_polls D (fun s' r => forall i, r = Ok (inl i) -> hardy_p sl P s' (k - 1)) (ap_produce P) s.
    Proof.
      intros s k H. destruct (@hardy_step _ _ _ _ _ _ _ _ _ _ PProduce H eq_refl) as [_ Hs]. apply op_await_ret in Hs.
      eapply op_mono; [..|exact Hs]; cbn; auto. intros s' r H' i ->. exact H'.
    Qed.
    Lemma hardy_slurp : forall s k, sl = true -> hardy_p sl P s k ->
      ok_polls D (fun s' r => r = Ok tt -> hardy_p sl P s' k) (ap_slurp P) s.
    Proof.
      intros s k Hsl H. destruct (@hardy_step _ _ _ _ _ _ _ _ _ _ PSlurp H Hsl) as [_ Hs]. apply op_await_ret in Hs.
      eapply op_mono; [..|exact Hs]; cbn; auto. intros s' r H' ->. exact H'.
    Qed.
    Lemma hardy_expose : forall s k, hardy_p sl P s k ->
      ok_polls D (fun s' r => forall ys, r = Ok (inl ys) -> hardy_p sl P s' (length ys)) (ap_expose P) s.
    Proof.
      intros s k H. destruct (@hardy_step _ _ _ _ _ _ _ _ _ _ PExpose H eq_refl) as [_ Hs]. apply op_await_ret in Hs.
      eapply op_mono; [..|exact Hs]; cbn; auto. intros s' r H' i ->. exact H'.
    Qed.
    Lemma hardy_consider : forall s k n, hardy_p sl P s k -> n <= k ->
      ok_polls D (fun s' r => r = Ok tt -> hardy_p sl P s' (k - n)) (ap_consider P n) s.
    Proof.
      intros s k n H Hn. assert (Ho : p_calls sl (mk_pmon false k) (@PConsider T n) = true).
      { unfold p_calls, p_may. cbn [pm_over pm_shown]. apply Nat.leb_le in Hn. now rewrite Hn. }
      destruct (@hardy_step _ _ _ _ _ _ _ _ _ _ (PConsider n) H Ho) as [_ Hs]. apply op_await_ret in Hs.
      eapply op_mono; [..|exact Hs]; cbn; auto. intros s' r H' ->. exact H'.
    Qed.
    Lemma hardy_bulk_produce : forall s k buf, hardy_p sl P s k ->
      ok_polls D (fun s' x => forall n, snd x = Ok (inl n) -> hardy_p sl P s' 0) (ap_bulk_produce P buf) s.
    Proof.
      intros s k buf H. destruct (@hardy_step _ _ _ _ _ _ _ _ _ _ (PBulkProduce buf) H eq_refl) as [_ Hs].
      cbn [ap_future] in Hs. apply op_await_ret_eq with (g := fun x => PABuf (fst x) (snd x)) in Hs; [|intros []; reflexivity].
      eapply op_mono; [..|exact Hs]; cbn; auto. intros s' [b r] H' n Hr. cbn in *. subst r. exact H'.
    Qed.
  End P.

  Section C.
    Variable C : a_bulk_consumer S T F E.
    Notation D := (fun s => hardy_c C s 0 0).

    Lemma hardy_c_forget : forall s k w, hardy_c C s k w -> hardy_c C s 0 0.
    Proof. intros s k w H. exact (proj1 (@hardy_step _ _ _ _ _ _ _ _ _ _ CFlush H eq_refl)). Qed.

    Lemma hardy_consume : forall s k w x, hardy_c C s k w -> ok_polls D (fun s' r => r = Ok tt -> hardy_c C s' 0 0) (ac_consume C x) s.
    Proof.
      intros s k w x H. destruct (@hardy_step _ _ _ _ _ _ _ _ _ _ (CConsume x) H eq_refl) as [_ Hs]. apply op_await_ret in Hs.
      eapply op_mono; [..|exact Hs]; cbn; auto. intros s' r H' ->. exact H'.
    Qed.
    Lemma hardy_close : forall s k w f, hardy_c C s k w -> ok_polls (fun _ => True) (fun _ _ => True) (ac_close C f) s.
    Proof.
      intros s k w f H. destruct (@hardy_step _ _ _ _ _ _ _ _ _ _ (CClose f) H eq_refl) as [_ Hs]. apply op_await_ret in Hs.
      eapply op_mono; [..|exact Hs]; cbn; auto.
    Qed.
    Lemma hardy_flush : forall s k w, hardy_c C s k w -> ok_polls D (fun s' r => r = Ok tt -> hardy_c C s' k w) (ac_flush C) s.
    Proof.
      intros s k w H. destruct (@hardy_step _ _ _ _ _ _ _ _ _ _ CFlush H eq_refl) as [_ Hs]. apply op_await_ret in Hs.
      eapply op_mono; [..|exact Hs]; cbn; auto. intros s' r H' ->. exact H'.
    Qed.
    Lemma hardy_expose_slots : forall s k w, hardy_c C s k w -> ok_polls D (fun s' r => forall n, r = Ok n -> hardy_c C s' n 0) (ac_expose C) s.
    Proof.
      intros s k w H. destruct (@hardy_step _ _ _ _ _ _ _ _ _ _ CExpose H eq_refl) as [_ Hs]. apply op_await_ret in Hs.
      eapply op_mono; [..|exact Hs]; cbn; auto. intros s' r H' i ->. exact H'.
    Qed.
    Lemma hardy_write : forall s k w ys, hardy_c C s k w -> length ys <= k -> hardy_c C (ac_write C ys s) k (Nat.max w (length ys)).
    Proof.
      intros s k w ys H Hy. assert (Ho : c_calls (mk_cmon false k w) (@CWrite T F ys) = true).
      { unfold c_calls, c_may. cbn [cm_over cm_shown]. now apply Nat.leb_le. }
      destruct (@hardy_step _ _ _ _ _ _ _ _ _ _ (CWrite ys) H Ho) as [_ Hs]. cbn -[Nat.min Nat.max] in Hs. now rewrite Nat.min_r in Hs.
    Qed.
    Lemma hardy_consume_slots : forall s k w n, hardy_c C s k w -> n <= w ->
      ok_polls D (fun s' r => r = Ok tt -> hardy_c C s' (k - n) (w - n)) (ac_consume_slots C n) s.
    Proof.
      intros s k w n H Hn. assert (Ho : c_calls (mk_cmon false k w) (@CConsumeSlots T F n) = true).
      { unfold c_calls, c_may. cbn [cm_over cm_written]. apply Nat.leb_le in Hn. now rewrite Hn. }
      destruct (@hardy_step _ _ _ _ _ _ _ _ _ _ (CConsumeSlots n) H Ho) as [_ Hs]. apply op_await_ret in Hs.
      eapply op_mono; [..|exact Hs]; cbn; auto. intros s' r H' ->. exact H'.
    Qed.
    Lemma hardy_bulk_consume : forall s k w buf, hardy_c C s k w ->
      ok_polls D (fun s' r => forall n, r = Ok n -> hardy_c C s' 0 0) (ac_bulk_consume C buf) s.
    Proof.
      intros s k w buf H. destruct (@hardy_step _ _ _ _ _ _ _ _ _ _ (CBulkConsume buf) H eq_refl) as [_ Hs]. apply op_await_ret in Hs.
      eapply op_mono; [..|exact Hs]; cbn; auto. intros s' r H' n ->. exact H'.
    Qed.
  End C.
End Calls.

(** ** How to show that something is hardy *)
Section Intro.
  Context {S T F E : Type}.

  Section P.
    Variables (sl : bool) (produce : fut S (res (T + F) E)) (slurp : fut S (res unit E))
      (expose : fut S (res (list T + F) E)) (consider : nat -> fut S (res unit E)).
    Variable Inv : S -> nat -> Prop.
    Hypothesis Hless : forall s k, Inv s k -> Inv s 0.
    Notation D := (fun s => Inv s 0).
    Hypothesis Hproduce : forall s k, Inv s k -> ok_polls D (fun s' r => forall i, r = Ok (inl i) -> Inv s' (k - 1)) produce s.
    Hypothesis Hslurp : forall s k, sl = true -> Inv s k -> ok_polls D (fun s' r => r = Ok tt -> Inv s' k) slurp s.
    Hypothesis Hexpose : forall s k, Inv s k -> ok_polls D (fun s' r => forall ys, r = Ok (inl ys) -> Inv s' (length ys)) expose s.
    Hypothesis Hconsider : forall s k n, Inv s k -> n <= k -> ok_polls D (fun s' r => r = Ok tt -> Inv s' (k - n)) (consider n) s.

    Lemma hardy_producer_of : forall s k, Inv s k -> hardy_p sl (a_bulk_producer_of produce slurp expose consider) s k.
    Proof.
      intros s k HI.
      apply hardy_intro with (Inv := fun s m => pm_over m = true \/ Inv s (pm_shown m)); [|now right].
      clear s k HI. intros s [over k] o HI Ho. unfold p_calls, p_may in Ho. cbn [pm_over pm_shown] in *.
      destruct over; [discriminate|]. destruct HI as [HI|HI]; [discriminate|]. cbn in Ho.
      split; [right; exact (Hless HI)|].
      destruct o as [| | |n|buf]; cbn [ap_future].
      - eapply op_k; [exact (Hproduce HI)|now right|]. intros s' r H. apply op_ret. cbn. destruct r as [[i|f]|e]; cbn; auto. right. eauto.
      - eapply op_k; [exact (Hslurp Ho HI)|now right|]. intros s' r H. apply op_ret. cbn. destruct r as [[]|e]; cbn; auto.
      - eapply op_k; [exact (Hexpose HI)|now right|]. intros s' r H. apply op_ret. cbn. destruct r as [[i|f]|e]; cbn; auto.
      - rewrite andb_true_r in Ho. apply Nat.leb_le in Ho. eapply op_k; [exact (Hconsider HI Ho)|now right|].
        intros s' r H. apply op_ret. cbn. destruct r as [[]|e]; cbn; auto.
      - eapply op_k with (D0 := D) (Q0 := fun s' x => forall n, snd x = Ok (inl n) -> Inv s' 0); [|now right|].
        + cbn [ap_bulk_produce a_bulk_producer_of]. unfold a_bulk_produce. eapply op_k; [exact (Hexpose HI)|auto|].
          intros s' r H. destruct r as [[ys|f]|e]; [|apply op_ret; cbn; discriminate..].
          eapply op_k; [exact (Hconsider (H _ eq_refl) (Nat.le_min_l _ (length buf)))|auto|].
          intros s2 r2 H2. destruct r2 as [[]|e]; apply op_ret; cbn [snd]; [|discriminate]. intros n _. exact (Hless (H2 eq_refl)).
        + intros s' [b r] H. apply op_ret. cbn in *. destruct r as [[n|f]|e]; cbn; eauto.
    Qed.
  End P.

  Section C.
    Variables (consume : T -> fut S (res unit E)) (close : F -> fut S (res unit E)) (flush : fut S (res unit E))
      (expose : fut S (res nat E)) (write : list T -> S -> S) (slots : nat -> fut S (res unit E)).
    Variable Inv : S -> nat -> nat -> Prop.
    Notation D := (fun s => Inv s 0 0).
    Hypothesis Hless : forall s k w, Inv s k w -> Inv s 0 0.
    Hypothesis Hconsume : forall x s k w, Inv s k w -> ok_polls D (fun s' r => r = Ok tt -> Inv s' 0 0) (consume x) s.
    Hypothesis Hclose : forall f s k w, Inv s k w -> ok_polls (fun _ => True) (fun _ _ => True) (close f) s.
    Hypothesis Hflush : forall s k w, Inv s k w -> ok_polls D (fun s' r => r = Ok tt -> Inv s' k w) flush s.
    Hypothesis Hexpose : forall s k w, Inv s k w -> ok_polls D (fun s' r => forall n, r = Ok n -> Inv s' n 0) expose s.
    Hypothesis Hwrite : forall ys s k w, Inv s k w -> length ys <= k -> Inv (write ys s) k (Nat.max w (length ys)).
    Hypothesis Hslots : forall n s k w, Inv s k w -> n <= w -> ok_polls D (fun s' r => r = Ok tt -> Inv s' (k - n) (w - n)) (slots n) s.

    Lemma hardy_consumer_of : forall s k w, Inv s k w -> hardy_c (a_bulk_consumer_of consume close flush expose write slots) s k w.
    Proof.
      intros s k w HI.
      apply hardy_intro with (Inv := fun s m => cm_over m = true \/ Inv s (cm_shown m) (cm_written m)); [|now right].
      clear s k w HI. intros s [over k w] o HI Ho. unfold c_calls, c_may in Ho. cbn [cm_over cm_shown cm_written] in *.
      destruct over; [discriminate|]. destruct HI as [HI|HI]; [discriminate|]. cbn in Ho.
      split; [destruct o; cbn; eauto|].
      destruct o as [x|f| | |ys|n|buf]; cbn [ac_future].
      - eapply op_k; [exact (Hconsume x HI)|now right|]. intros s' r H. apply op_ret. cbn. destruct r as [[]|e]; cbn; auto.
      - eapply op_k; [exact (Hclose f HI)|now left|]. intros s' r H. apply op_ret. cbn. auto.
      - eapply op_k; [exact (Hflush HI)|now right|]. intros s' r H. apply op_ret. cbn. destruct r as [[]|e]; cbn; auto.
      - eapply op_k; [exact (Hexpose HI)|now right|]. intros s' r H. apply op_ret. cbn. destruct r as [n|e]; cbn; auto.
      - apply op_sync. apply Nat.leb_le in Ho. cbn -[Nat.min Nat.max]. right. rewrite Nat.min_r by exact Ho. now apply Hwrite.
      - rewrite andb_true_r in Ho. apply Nat.leb_le in Ho. eapply op_k; [exact (Hslots HI Ho)|now right|].
        intros s' r H. apply op_ret. cbn. destruct r as [[]|e]; cbn; auto.
      - eapply op_k with (D0 := D) (Q0 := fun s' r => forall n, r = Ok n -> Inv s' 0 0); [|now right|].
        + cbn [ac_bulk_consume a_bulk_consumer_of]. unfold a_bulk_consume.
          eapply op_k; [exact (Hexpose HI)|auto|]. intros s' r H. destruct r as [m|e]; [|apply op_ret; discriminate..].
          set (n := Nat.min m (length buf)).
          assert (Hn : length (firstn n buf) = n) by (rewrite firstn_length; lia).
          apply op_sync_k. cbn [safely fst snd].
          eapply op_k; [refine (@Hslots n (write (firstn n buf) s') m (Nat.max 0 (length (firstn n buf))) _ _)|auto|].
          * apply Hwrite; [exact (H _ eq_refl)|lia].
          * lia.
          * intros s2 r2 H2. destruct r2 as [[]|e]; apply op_ret; [|discriminate]. intros i _. exact (Hless (H2 eq_refl)).
        + intros s' r H. apply op_ret. cbn in *. destruct r as [n|e]; cbn; eauto.
    Qed.
  End C.
End Intro.

(** ** Adaptors *)

(** A call of the inner object, in the middle of a method or as its last step. *)
Ltac inner_k H := eapply op_within_k; [intros; reflexivity|intros; reflexivity|exact H| |].
Ltac inner H := eapply op_within; [intros; reflexivity|intros; reflexivity|exact H| |].

Section Adaptors.
  Context {S T F E : Type}.

  Lemma limit_producer_hardy : forall sl (P : a_bulk_producer S T F E) s n k, hardy_p sl P s k -> hardy_p sl (a_limit_producer P) (limit_new s n) 0.
  Proof.
    intros sl P s n k H.
    apply hardy_producer_of with (Inv := fun s k => k <= lim_remaining s /\ exists k', k <= k' /\ hardy_p sl P (lim_inner s) k');
      [..|cbn; split; [lia|exists k; split; [lia|exact H]]]; clear s n k H.
    - intros s k (H & k' & Hk & Hc). split; [lia|]. exists k'. split; [lia|exact Hc].
    - intros [i [|r]] k (H & k' & Hk & Hc); unfold a_limit_produce; apply op_get_k; cbn [lim_remaining lim_inner] in *; [apply op_ret; discriminate|].
      apply op_put_k. inner_k (hardy_produce Hc); cbn [lim_remaining lim_inner].
      + intros i' Hi. split; [lia|]. exists 0. auto.
      + intros i' [[x|f]|e] Hi; apply op_ret; try discriminate. intros y Ey. cbn. split; [lia|]. exists (k' - 1). split; [lia|eauto].
    - intros s k Hsl (H & k' & Hk & Hc). inner (hardy_slurp Hsl Hc); cbn.
      + intros i' Hi. split; [lia|]. exists 0. auto.
      + intros i' r Hi Hr. split; [exact H|]. exists k'. auto.
    - intros [i rem] k (H & k' & Hk & Hc); unfold a_limit_expose; apply op_get_k; cbn [lim_remaining lim_inner] in *.
      destruct (rem =? 0) eqn:Er; [apply op_ret; discriminate|].
      inner_k (hardy_expose Hc); cbn [lim_remaining lim_inner].
      + intros i' Hi. split; [lia|]. exists 0. auto.
      + intros i' [[ys|f]|e] Hi; try (apply op_ret; discriminate). apply op_get_k. apply op_attempt_k. cbn [lim_remaining].
        rewrite slice_to_ok by lia. cbn [safely]. apply op_ret. intros zs Ez. injection Ez as <-. cbn [lim_remaining lim_inner]. rewrite firstn_length. split; [lia|].
        exists (length ys). split; [lia|auto].
    - intros s k n (H & k' & Hk & Hc) Hn. unfold a_limit_consider. apply op_sync_k. rewrite csub_ok by lia. cbn [bind safely fst snd].
      assert (Hn' : n <= k') by lia.
      inner (hardy_consider Hc Hn'); cbn.
      + intros i' Hi. split; [lia|]. exists 0. auto.
      + intros i' r Hi Hr. split; [lia|]. exists (k' - n). split; [lia|auto].
  Qed.

  Lemma limit_consumer_hardy : forall (C : a_bulk_consumer S T F E) s n k w, hardy_c C s k w -> hardy_c (a_limit_consumer C) (limit_new s n) 0 0.
  Proof.
    intros C s n k w H.
    apply hardy_consumer_of with (Inv := fun s k w => k <= lim_remaining s /\ w <= k /\ exists k' w', k <= k' /\ w <= w' /\ hardy_c C (lim_inner s) k' w');
      [..|cbn; splits; [lia|lia|exists k, w; splits; [lia|lia|exact H]]]; clear s n k w H.
    - intros s k w (H & Hw & k' & w' & H1 & H2 & Hc). splits; [lia|lia|]. exists k', w'. splits; [lia|lia|exact Hc].
    - intros x [i [|r]] k w (H & Hw & k' & w' & H1 & H2 & Hc); unfold a_limit_consume; apply op_get_k; cbn [lim_remaining lim_inner] in *; [apply op_ret; discriminate|].
      apply op_put_k. inner_k (hardy_consume x Hc); cbn [lim_remaining lim_inner].
      + intros i' Hi. splits; [lia|lia|]. exists 0, 0. auto.
      + intros i' [[]|e] Hi; apply op_ret; cbn; try discriminate. intros _. splits; [lia|lia|]. exists 0, 0. auto.
    - intros f s k w (H & Hw & k' & w' & H1 & H2 & Hc). unfold a_limit_close. inner_k (hardy_close f Hc); cbn; auto.
    - intros s k w (H & Hw & k' & w' & H1 & H2 & Hc). unfold a_limit_flush. inner_k (hardy_flush Hc); cbn.
      + intros i' Hi. splits; [lia|lia|]. exists 0, 0. auto.
      + intros i' [[]|e] Hi; cbn; try discriminate. intros _. splits; auto. exists k', w'. auto.
    - intros [i rem] k w (H & Hw & k' & w' & H1 & H2 & Hc); unfold a_limit_expose_slots; apply op_get_k; cbn [lim_remaining lim_inner] in *.
      destruct (rem =? 0) eqn:Er; [apply op_ret; discriminate|].
      inner_k (hardy_expose_slots Hc); cbn [lim_remaining lim_inner].
      + intros i' Hi. splits; [lia|lia|]. exists 0, 0. auto.
      + intros i' [n|e] Hi; [|apply op_ret; discriminate]. apply op_get_k. apply op_ret. cbn [lim_remaining lim_inner].
        intros m Em. injection Em as <-. splits; [lia|lia|]. exists n, 0. splits; [lia|lia|auto].
    - intros ys s k w (H & Hw & k' & w' & H1 & H2 & Hc) Hy. cbn -[Nat.max]. splits; [lia|lia|].
      exists k', (Nat.max w' (length ys)). splits; [lia|lia|]. apply hardy_write; [exact Hc|lia].
    - intros n s k w (H & Hw & k' & w' & H1 & H2 & Hc) Hn. unfold a_limit_consume_slots. apply op_sync_k. rewrite csub_ok by lia. cbn [bind safely fst snd].
      assert (Hn' : n <= w') by lia. inner_k (hardy_consume_slots Hc Hn'); cbn.
      + intros i' Hi. splits; [lia|lia|]. exists 0, 0. auto.
      + intros i' [[]|e] Hi; cbn; try discriminate. intros _. splits; [lia|lia|]. exists (k' - n), (w' - n). splits; [lia|lia|auto].
  Qed.

  Lemma map_final_call_hardy : forall B X (call : fut S (res (X + F) E)) D Q (s : with_fun S (F -> B)), ok_polls D Q call (wf_inner s) -> wf_fun s <> None ->
    ok_polls (fun s' => wf_fun s' <> None /\ D (wf_inner s')) (fun s' r => forall x, r = Ok (inl x) -> wf_fun s' <> None /\ Q (wf_inner s') (Ok (inl x)))
      (a_map_final_call call) s.
  Proof.
    intros B X call D Q [i g] H Hg. unfold a_map_final_call. inner_k H; cbn in *.
    - intros i' Hi. auto.
    - intros i' [[x|f]|e] Hi; cbn; try discriminate.
      + intros y Ey. injection Ey as <-. auto.
      + destruct g as [g|]; [|congruence]. cbn. discriminate.
  Qed.

  Lemma map_final_producer_hardy : forall B sl (P : a_bulk_producer S T F E) s (g : F -> B) k, hardy_p sl P s k ->
    hardy_p sl (a_map_final_producer P) (with_fun_new s g) k.
  Proof.
    intros B sl P s g k H.
    apply hardy_producer_of with (Inv := fun s k => wf_fun s <> None /\ hardy_p sl P (wf_inner s) k); [..|cbn; split; [discriminate|exact H]]; clear s g k H.
    - intros s k (H & Hc). split; [exact H|]. exact (hardy_p_forget Hc).
    - intros s k (H & Hc). eapply op_mono; [| |eapply map_final_call_hardy; [exact (hardy_produce Hc)|exact H]]; cbn; auto.
      intros s' r Hr x ->. destruct (Hr _ eq_refl). eauto.
    - intros s k Hsl (H & Hc). inner (hardy_slurp Hsl Hc); cbn; auto.
    - intros s k (H & Hc). eapply op_mono; [| |eapply map_final_call_hardy; [exact (hardy_expose Hc)|exact H]]; cbn; auto.
      intros s' r Hr x ->. destruct (Hr _ eq_refl). eauto.
    - intros s k n (H & Hc) Hn. inner (hardy_consider Hc Hn); cbn; auto.
  Qed.

  Lemma map_final_consumer_hardy : forall B (C : a_bulk_consumer S T F E) s (g : B -> F) k w, hardy_c C s k w ->
    hardy_c (a_map_final_consumer C) (with_fun_new s g) k w.
  Proof.
    intros B C s g k w H.
    apply hardy_consumer_of with (Inv := fun s k w => wf_fun s <> None /\ hardy_c C (wf_inner s) k w); [..|cbn; split; [discriminate|exact H]]; clear s g k w H.
    - intros s k w (H & Hc). split; [exact H|]. exact (hardy_c_forget Hc).
    - intros x s k w (H & Hc). inner (hardy_consume x Hc); cbn; auto.
    - intros f [i [g|]] k w (H & Hc); [|now elim H]. unfold a_map_final_close. apply op_sync_k. cbn [wf_fun wf_inner expect bind safely fst snd] in *.
      inner (hardy_close (g f) Hc); auto.
    - intros s k w (H & Hc). inner (hardy_flush Hc); cbn; auto.
    - intros s k w (H & Hc). inner (hardy_expose_slots Hc); cbn; auto.
    - intros ys s k w (H & Hc) Hy. cbn -[Nat.max]. split; [exact H|]. now apply hardy_write.
    - intros n s k w (H & Hc) Hn. inner (hardy_consume_slots Hc Hn); cbn; auto.
  Qed.

  (** Where the consumer is being closed, the invariant is lost: the function is gone. That is why nothing is asked of [hardy_close]. *)

  Lemma invariant_producer_hardy : forall sl (P : a_bulk_producer S T F E) s k, hardy_p sl P s k -> hardy_p sl (a_invariant_producer P) (invariant_new s) 0.
  Proof.
    intros sl P s k H.
    apply hardy_producer_of with (Inv := fun s k => inv_active s = true /\ k <= inv_exposed s /\ exists k', k <= k' /\ hardy_p sl P (inv_inner s) k');
      [..|cbn; splits; [reflexivity|lia|exists k; split; [lia|exact H]]]; clear s k H.
    - intros s k (Ha & H & k' & Hk & Hc). splits; [exact Ha|lia|]. exists k'. split; [lia|exact Hc].
    - intros [i [|] n] k (Ha & H & k' & Hk & Hc); [|discriminate]. unfold a_invariant_produce. apply op_sync_k. cbn [inv_active inv_inner inv_exposed safely fst snd] in *.
      inner_k (hardy_produce Hc); cbn [inv_active inv_inner inv_exposed].
      + intros i' Hi. splits; [reflexivity|lia|]. exists 0. auto.
      + intros i' [[x|f]|e] Hi; cbn; try discriminate. intros y Ey. splits; [reflexivity|lia|]. exists (k' - 1). split; [lia|eauto].
    - intros [i [|] n] k Hsl (Ha & H & k' & Hk & Hc); [|discriminate]. unfold a_invariant_unit. apply op_sync_k. cbn [inv_active inv_inner inv_exposed safely fst snd] in *.
      inner_k (hardy_slurp Hsl Hc); cbn [inv_active inv_inner inv_exposed].
      + intros i' Hi. splits; [reflexivity|lia|]. exists 0. auto.
      + intros i' [[]|e] Hi; cbn; try discriminate. intros _. splits; [reflexivity|lia|]. exists k'. auto.
    - intros [i [|] n] k (Ha & H & k' & Hk & Hc); [|discriminate]. unfold a_invariant_expose. apply op_sync_k. cbn [inv_active inv_inner inv_exposed safely fst snd] in *.
      inner_k (hardy_expose Hc); cbn [inv_active inv_inner inv_exposed].
      + intros i' Hi. splits; [reflexivity|lia|]. exists 0. auto.
      + intros i' [[x|f]|e] Hi; cbn; try discriminate. intros y Ey. injection Ey as <-. splits; [reflexivity|lia|]. exists (length x). auto.
    - intros [i [|] m] k n (Ha & H & k' & Hk & Hc) Hn; [|discriminate]. unfold a_invariant_consider. apply op_sync_k. cbn [inv_active inv_inner inv_exposed safely fst snd] in *.
      apply op_sync_k. cbn [inv_exposed]. destruct (m <? n) eqn:Em; [apply Nat.ltb_lt in Em; lia|]. rewrite csub_ok by lia. cbn [bind safely fst snd inv_active inv_inner].
      assert (Hn' : n <= k') by lia. inner (hardy_consider Hc Hn'); cbn.
      + intros i' Hi. splits; [reflexivity|lia|]. exists 0. auto.
      + intros i' r Hi Hr. splits; [reflexivity|lia|]. exists (k' - n). split; [lia|auto].
  Qed.

  Lemma invariant_consumer_hardy : forall (C : a_bulk_consumer S T F E) s k w, hardy_c C s k w -> hardy_c (a_invariant_consumer C) (invariant_new s) 0 0.
  Proof.
    intros C s k w H.
    apply hardy_consumer_of with (Inv := fun s k w => inv_active s = true /\ k <= inv_exposed s /\ w <= k /\
      exists k' w', k <= k' /\ w <= w' /\ hardy_c C (inv_inner s) k' w');
      [..|cbn; splits; [reflexivity|lia|lia|exists k, w; splits; [lia|lia|exact H]]]; clear s k w H.
    - intros s k w (Ha & H & Hw & k' & w' & H1 & H2 & Hc). splits; [exact Ha|lia|lia|]. exists k', w'. splits; [lia|lia|exact Hc].
    - intros x [i [|] n] k w (Ha & H & Hw & k' & w' & H1 & H2 & Hc); [|discriminate]. unfold a_invariant_unit. apply op_sync_k. cbn [inv_active inv_inner inv_exposed safely fst snd] in *.
      inner_k (hardy_consume x Hc); cbn [inv_active inv_inner inv_exposed].
      + intros i' Hi. splits; [reflexivity|lia|lia|]. exists 0, 0. auto.
      + intros i' [[]|e] Hi; cbn; try discriminate. intros _. splits; [reflexivity|lia|lia|]. exists 0, 0. auto.
    - intros f [i [|] n] k w (Ha & H & Hw & k' & w' & H1 & H2 & Hc); [|discriminate]. unfold a_invariant_close. apply op_sync_k. cbn [inv_active inv_inner inv_exposed safely fst snd] in *.
      apply op_sync_k. cbn [inv_active inv_inner inv_exposed safely fst snd]. inner (hardy_close f Hc); auto.
    - intros [i [|] n] k w (Ha & H & Hw & k' & w' & H1 & H2 & Hc); [|discriminate]. unfold a_invariant_unit. apply op_sync_k. cbn [inv_active inv_inner inv_exposed safely fst snd] in *.
      inner_k (hardy_flush Hc); cbn [inv_active inv_inner inv_exposed].
      + intros i' Hi. splits; [reflexivity|lia|lia|]. exists 0, 0. auto.
      + intros i' [[]|e] Hi; cbn; try discriminate. intros _. splits; [reflexivity|lia|lia|]. exists k', w'. auto.
    - intros [i [|] n] k w (Ha & H & Hw & k' & w' & H1 & H2 & Hc); [|discriminate]. unfold a_invariant_expose_slots. apply op_sync_k. cbn [inv_active inv_inner inv_exposed safely fst snd] in *.
      inner_k (hardy_expose_slots Hc); cbn [inv_active inv_inner inv_exposed].
      + intros i' Hi. splits; [reflexivity|lia|lia|]. exists 0, 0. auto.
      + intros i' [m|e] Hi; cbn; try discriminate. intros y Ey. injection Ey as <-. splits; [reflexivity|lia|lia|]. exists m, 0. splits; [lia|lia|auto].
    - intros ys s k w (Ha & H & Hw & k' & w' & H1 & H2 & Hc) Hy. cbn -[Nat.max]. splits; [exact Ha|lia|lia|].
      exists k', (Nat.max w' (length ys)). splits; [lia|lia|]. apply hardy_write; [exact Hc|lia].
    - intros n [i [|] m] k w (Ha & H & Hw & k' & w' & H1 & H2 & Hc) Hn; [|discriminate]. unfold a_invariant_consume_slots. apply op_sync_k. cbn [inv_active inv_inner inv_exposed safely fst snd] in *.
      apply op_sync_k. cbn [inv_exposed]. destruct (m <? n) eqn:Em; [apply Nat.ltb_lt in Em; lia|]. rewrite csub_ok by lia. cbn [bind safely fst snd inv_active inv_inner].
      assert (Hn' : n <= w') by lia. inner (hardy_consume_slots Hc Hn'); cbn.
      + intros i' Hi. splits; [reflexivity|lia|lia|]. exists 0, 0. auto.
      + intros i' r Hi Hr. splits; [reflexivity|lia|lia|]. exists (k' - n), (w' - n). splits; [lia|lia|auto].
  Qed.
End Adaptors.

(** ** Scramblers *)
Section ProducerScrambler.
  Context {S T F E : Type} (dbg : bool) (P : a_bulk_producer S T F E) (sl : bool) (cap : nat) (ops : list pscr_op).
  Hypothesis slurps_ok : sl = true \/ ~ In ScSlurp ops.

  Definition pscr_hardy (s : pscr S T F E) (buf : list T) : Prop :=
    pscr_wf cap ops s buf /\ (ps_last s = None -> exists k, hardy_p sl P (ps_inner s) k).
  Notation D := (fun s => exists buf, pscr_hardy s buf).

  Lemma pscr_perform_hardy : forall s buf, pscr_hardy s buf -> ps_last s = None -> length buf < cap ->
    ok_polls D (fun s' r => exists more, pscr_wf cap ops s' (buf ++ more) /\ ps_last s' = None /\
                  (r = Ok None -> exists k, hardy_p sl P (ps_inner s') k)) (a_pscr_perform_operation dbg P) s.
  Proof.
    intros s buf (W & HC) Hlast Hlt. destruct (HC Hlast) as [k Hk]. clear HC. pose proof W as (HQ & Ho & Hi).
    assert (HD : forall i, hardy_p sl P i 0 -> D (ps_with_inner i s)).
    { intros i Hi'. exists buf. split; [unfold pscr_wf; cbn; auto|]. intros _. exists 0. exact Hi'. }
    unfold a_pscr_perform_operation. apply op_get_k. apply op_attempt_k. rewrite debug_assert_true.
    2: { rewrite (pscr_wf_len W). destruct (pscr_wf_cap W) as [-> _]. now apply Nat.ltb_lt. }
    cbn [safely]. apply op_attempt_k.
    rewrite Ho. unfold index. destruct (nth_error ops (ps_index s)) as [o|] eqn:En.
    2: { apply nth_error_None in En. lia. }
    cbn [safely]. assert (Hin : In o ops) by (eapply nth_error_In; eauto).
    assert (Hmod : (ps_index s + 1) mod length ops < length ops) by (apply Nat.mod_upper_bound; lia).
    destruct o as [|n|].
    - inner_k (hardy_produce Hk); [exact HD|]. intros i [[x|f]|e] Hr.
      + destruct (lq_enqueue (fixed_lawful cap) x HQ Hlt) as (b & E2 & HQ').
        apply op_sync_k. cbn [ps_with_inner ps_buffer]. rewrite E2. cbn [bind safely fst snd].
        apply op_attempt_k. rewrite debug_assert_true by reflexivity. cbn [safely]. apply op_sync_k.
        rewrite (@pscr_advance_ok _ _ _ _ cap ops) with (buf := buf ++ [x]).
        2: { unfold pscr_wf, ps_with_buffer, ps_with_inner; cbn; splits; auto. }
        cbn [bind safely fst snd]. apply op_ret. exists [x]. unfold pscr_wf. cbn. splits; auto. intros _. exists (k - 1). eauto.
      + apply op_ret. exists []. rewrite app_nil_r. cbn. splits; auto. discriminate.
      + apply op_ret. exists []. rewrite app_nil_r. cbn. splits; auto. discriminate.
    - inner_k (hardy_expose Hk); [exact HD|]. intros i [[ys|f]|e] Hr.
      + apply op_attempt_k. rewrite slice_to_ok by lia. cbn [safely]. apply op_sync_k. cbn [ps_with_inner ps_buffer ps_inner].
        destruct (lawful_bulk_enqueue (fixed_lawful cap) (firstn (Nat.min (length ys) n) ys) HQ) as (b & m & E2 & Hm1 & Hm2 & Hm3 & HQ').
        rewrite E2. cbn [bind safely fst snd]. rewrite firstn_length in Hm1.
        unfold ps_with_buffer. cbn [ps_inner ps_buffer ps_last ps_operations ps_index].
        assert (Hm : m <= length ys) by lia.
        inner_k (hardy_consider (Hr _ eq_refl) Hm).
        { intros i2 H2. eexists. split; [unfold pscr_wf, ps_with_inner; cbn [ps_buffer ps_operations ps_index ps_inner]; splits; [exact HQ'|exact Ho|exact Hi]|].
          intros _. exists 0. exact H2. }
        intros i2 [[]|e] H2.
        * apply op_sync_k. rewrite (@pscr_advance_ok _ _ _ _ cap ops) with (buf := buf ++ firstn m (firstn (Nat.min (length ys) n) ys)).
          2: { unfold pscr_wf, ps_with_inner; cbn [ps_buffer ps_operations ps_index ps_inner]; splits; auto. }
          cbn [bind safely fst snd]. apply op_ret.
          eexists. unfold pscr_wf, ps_with_inner. cbn [ps_buffer ps_operations ps_index ps_inner ps_last]. splits; [exact HQ'|reflexivity|exact Hmod|exact Hlast|].
          intros _. exists (length ys - m). auto.
        * apply op_ret. eexists. unfold pscr_wf, ps_with_inner. cbn [ps_buffer ps_operations ps_index ps_inner ps_last]. splits; [exact HQ'|exact Ho|exact Hi|exact Hlast|discriminate].
      + apply op_ret. exists []. rewrite app_nil_r. cbn. splits; auto. discriminate.
      + apply op_ret. exists []. rewrite app_nil_r. cbn. splits; auto. discriminate.
    - destruct slurps_ok as [Hsl|Hno]; [|contradiction].
      inner_k (hardy_slurp Hsl Hk); [exact HD|]. intros i [[]|e] Hr.
      + apply op_sync_k. rewrite (@pscr_advance_ok _ _ _ _ cap ops) with (buf := buf).
        2: { unfold pscr_wf, ps_with_inner; cbn; splits; auto. }
        cbn [bind safely fst snd]. apply op_ret. exists []. rewrite app_nil_r. unfold pscr_wf. cbn. splits; auto. intros _. exists k. auto.
      + apply op_ret. exists []. rewrite app_nil_r. cbn. splits; auto. discriminate.
  Qed.

  Lemma pscr_fill_loop_hardy : forall fuel s buf, pscr_hardy s buf ->
    ok_polls D (fun s' _ => exists more, pscr_hardy s' (buf ++ more) /\ (ps_last s' = None -> length (buf ++ more) = cap)) (a_pscr_fill_loop dbg fuel P) s.
  Proof.
    induction fuel as [|fuel IH]; intros s buf (W & HC); cbn [a_pscr_fill_loop]; [apply op_out_of_fuel|].
    apply op_get_k. destruct (ps_last s) as [l|] eqn:El.
    - apply op_ret. exists []. rewrite app_nil_r. split; [split; [exact W|rewrite El; discriminate]|rewrite El; discriminate].
    - destruct (pscr_wf_cap W) as [Ec Hc]. rewrite (pscr_wf_len W), Ec. destruct (length buf <? cap) eqn:Elt.
      + apply Nat.ltb_lt in Elt. eapply op_k; [apply (@pscr_perform_hardy s buf); [split; [exact W|rewrite El; exact HC]|exact El|exact Elt]|auto|].
        intros s' r (more & W' & El' & HC').
        assert (Hgo : forall s2, pscr_hardy s2 (buf ++ more) ->
          ok_polls D (fun s' _ => exists more, pscr_hardy s' (buf ++ more) /\ (ps_last s' = None -> length (buf ++ more) = cap)) (a_pscr_fill_loop dbg fuel P) s2).
        { intros s2 H2. eapply op_mono; [| |apply (IH _ _ H2)]; auto. intros s3 _ (more' & H3). exists (more ++ more'). now rewrite app_assoc. }
        destruct r as [[f|]|e]; [apply op_sync_k; cbn [safely fst snd]|..|apply op_sync_k; cbn [safely fst snd]]; apply Hgo; split; auto; cbn; discriminate.
      + apply Nat.ltb_ge in Elt. apply op_ret. exists []. rewrite app_nil_r. split; [split; [exact W|rewrite El; exact HC]|]. intros _. lia.
  Qed.

  Lemma pscr_fill_queue_hardy : forall fuel s buf, pscr_hardy s buf ->
    ok_polls D (fun s' r => r = None -> exists more, pscr_hardy s' (buf ++ more) /\ buf ++ more <> []) (a_pscr_fill_queue dbg fuel P) s.
  Proof.
    intros fuel s buf H. unfold a_pscr_fill_queue. eapply op_k; [apply (pscr_fill_loop_hardy fuel H)|auto|].
    intros s' _ (more & (W & HC) & Hfull). apply op_get_k. rewrite (pscr_wf_len W). destruct (buf ++ more) as [|y bs] eqn:Eb.
    - cbn [length Nat.eqb]. apply op_sync_k. cbn [safely fst snd]. apply op_ret. intros Hn. exfalso. specialize (Hfull Hn). destruct W as ((Hp & _) & _). cbn in Hfull. lia.
    - cbn [length Nat.eqb]. apply op_ret. intros _. exists more. rewrite Eb. split; [split; auto|discriminate].
  Qed.

  Lemma pscr_hardy_intro : forall fuel s buf, pscr_hardy s buf -> hardy_p false (a_pscr_producer dbg fuel P) s (length buf).
  Proof.
    intros fuel s buf H.
    assert (HD : forall s, D s -> exists buf, pscr_hardy s buf /\ 0 <= length buf).
    { intros s0 (b & Hb). exists b. split; [exact Hb|lia]. }
    apply hardy_producer_of with (Inv := fun s k => exists buf, pscr_hardy s buf /\ k <= length buf); [..|eauto]; clear s buf H.
    - intros s k (buf & H & Hk). exists buf. split; [exact H|lia].
    - intros s k (buf & H & Hk). unfold a_pscr_produce. eapply op_k; [apply (pscr_fill_queue_hardy fuel H)|exact HD|].
      intros s' l Hf. destruct l as [[f|e]|]; [apply op_ret; discriminate..|].
      destruct (Hf eq_refl) as (more & (W & HC) & Hne). destruct (buf ++ more) as [|y bs] eqn:Eb; [congruence|].
      pose proof W as (HQ & Ho & Hi). destruct (lq_dequeue (fixed_lawful cap) HQ) as (b & E2 & HQ').
      apply op_sync_k. rewrite E2. cbn [bind safely fst snd]. apply op_attempt_k. cbn [expect safely]. apply op_ret.
      intros i _. exists bs. split; [split; [unfold pscr_wf; cbn; auto|exact HC]|].
      apply (f_equal (@length T)) in Eb. rewrite app_length in Eb. cbn in Eb. lia.
    - discriminate.
    - intros s k (buf & H & Hk). unfold a_pscr_expose. eapply op_k; [apply (pscr_fill_queue_hardy fuel H)|exact HD|].
      intros s' l Hf. destruct l as [[f|e]|]; [apply op_ret; discriminate..|].
      destruct (Hf eq_refl) as (more & (W & HC) & Hne).
      pose proof W as (HQ & Ho & Hi). destruct (lq_expose_items (fixed_lawful cap) HQ Hne) as (b & ys & rest & E2 & Hy & Hb & HQ').
      apply op_sync_k. rewrite E2. cbn [bind safely fst snd]. apply op_attempt_k. cbn [expect safely]. apply op_ret.
      intros i Ei. injection Ei as <-. exists (buf ++ more). split; [split; [unfold pscr_wf; cbn; auto|exact HC]|].
      rewrite Hb, app_length. lia.
    - intros s k n (buf & (W & HC) & Hk) Hn. apply op_sync. unfold pscr_consider. pose proof W as (HQ & Ho & Hi).
      destruct (lq_consider_dequeued (fixed_lawful cap) n HQ) as (b & E1 & HQ'); [lia|]. rewrite E1. cbn.
      intros _. exists (skipn n buf). split; [split; [unfold pscr_wf; cbn; auto|exact HC]|]. rewrite skipn_length. lia.
  Qed.
End ProducerScrambler.

Lemma pscr_producer_hardy : forall S T F E dbg fuel sl (P : a_bulk_producer S T F E) x0 s pat cap k,
  0 < cap -> sl = true \/ ~ In ScSlurp pat -> hardy_p sl P s k ->
  hardy_p false (a_pscr_producer dbg fuel P) (pscr_new_with_capacity x0 s pat cap) 0.
Proof.
  intros S T F E dbg fuel sl P x0 s pat cap k Hc Hs H.
  apply pscr_hardy_intro with (cap := cap) (ops := pscr_operations pat) (sl := sl) (buf := []).
  - destruct Hs as [Hs|Hs]; [now left|right]. intros Hin. apply Hs. exact (pscr_operations_slurp _ Hin).
  - split; [|intros _; exists k; exact H]. unfold pscr_wf, pscr_new_with_capacity, fixed_new. cbn. splits; [now apply fixed_new_R|reflexivity|].
    unfold pscr_operations. destruct (pscr_make_progress pat) eqn:Ep; [destruct pat; [discriminate|cbn; lia]|rewrite app_length; cbn; lia].
Qed.

Section ConsumerScrambler.
  Context {S T F E : Type} (x0 : T) (C : a_bulk_consumer S T F E) (cap : nat) (ops : list cscr_op).

  Definition cscr_hardy (s : cscr S T) (pend : list T) (k : nat) (w : list T) : Prop :=
    cscr_wf cap ops s pend k w /\ exists k' w', hardy_c C (cs_inner s) k' w'.
  Notation D := (fun s => exists pend k w, cscr_hardy s pend k w).

  Lemma cscr_perform_hardy : forall dbg s pend k w, cscr_hardy s pend k w -> pend <> [] ->
    ok_polls D (fun s' r => r = Ok tt -> exists m, cscr_hardy s' (skipn m pend) k w) (a_cscr_perform_operation dbg x0 C) s.
  Proof.
    intros dbg s pend k w (W & k' & w' & Hc) Hne. pose proof W as (HQ & Ho & Hi).
    assert (Hlen : 0 < length pend) by (destruct pend; [congruence|cbn; lia]).
    unfold a_cscr_perform_operation. apply op_get_k. apply op_attempt_k. rewrite debug_assert_true.
    2: { rewrite (cscr_wf_len W). now apply Nat.ltb_lt. }
    cbn [safely]. apply op_attempt_k.
    rewrite Ho. unfold index. destruct (nth_error ops (cs_index s)) as [o|] eqn:En.
    2: { apply nth_error_None in En. lia. }
    cbn [safely].
    assert (Hmod : (cs_index s + 1) mod length ops < length ops) by (apply Nat.mod_upper_bound; lia).
    eapply op_k with (D0 := D) (Q0 := fun s' r => r = Ok tt -> exists m, cscr_hardy s' (skipn m pend) k w); [|auto|].
    - destruct o as [|n|].
      + destruct pend as [|y pend]; [congruence|]. destruct (lq_dequeue (fixed_lawful cap) HQ) as (b & E2 & HQ').
        apply op_sync_k. rewrite E2. cbn [bind safely fst snd]. apply op_attempt_k. cbn [expect safely].
        inner (hardy_consume y Hc).
        * intros i H. exists pend, k, w. split; [unfold cscr_wf; cbn; auto|exists 0, 0; exact H].
        * intros i r H Hr. exists 1. split; [unfold cscr_wf; cbn; auto|exists 0, 0; exact (H Hr)].
      + inner_k (hardy_expose_slots Hc).
        { intros i H. exists pend, k, w. split; [unfold cscr_wf; cbn; auto|exists 0, 0; exact H]. }
        intros i [m|e] Hr; [|apply op_ret; discriminate]. apply op_sync_k. cbn [cs_with_inner cs_buffer].
        destruct (lawful_bulk_dequeue (fixed_lawful cap) (repeat x0 (Nat.min m n)) HQ) as (b & j & E2 & Hj1 & Hj2 & Hj3 & HQ').
        rewrite E2. cbn [bind safely fst snd cs_with_buffer cs_inner]. rewrite repeat_length in Hj1.
        set (zs := firstn j (firstn j pend ++ skipn j (repeat x0 (Nat.min m n)))).
        assert (Hz : length zs = j).
        { subst zs. rewrite firstn_length, app_length, firstn_length, skipn_length, repeat_length. lia. }
        assert (Hcw : hardy_c C (ac_write C zs i) m (Nat.max 0 (length zs))) by (apply hardy_write; [exact (Hr _ eq_refl)|lia]).
        assert (Hj : j <= Nat.max 0 (length zs)) by lia.
        inner (hardy_consume_slots Hcw Hj).
        * intros i2 H. exists (skipn j pend), k, w. split; [unfold cscr_wf; cbn; auto|exists 0, 0; exact H].
        * intros i2 r2 H2 Hr2. exists j. split; [unfold cscr_wf; cbn; auto|eauto].
      + inner (hardy_flush Hc).
        * intros i H. exists pend, k, w. split; [unfold cscr_wf; cbn; auto|exists 0, 0; exact H].
        * intros i r H Hr. exists 0. split; [unfold cscr_wf; cbn; auto|eauto].
    - intros s' r H. destruct r as [[]|e]; [|apply op_ret; discriminate]. destruct (H eq_refl) as (m & W' & Hc').
      apply op_sync_k. rewrite (cscr_advance_ok W'). cbn [bind safely fst snd]. apply op_ret. intros _. exists m. split; [|exact Hc']. destruct W' as (HQ' & _ & Hi').
      unfold cscr_wf. cbn. splits; auto. apply Nat.mod_upper_bound. lia.
  Qed.

  Lemma cscr_drain_hardy : forall dbg fuel s pend k w, cscr_hardy s pend k w ->
    ok_polls D (fun s' r => r = Ok tt -> cscr_hardy s' [] k w) (a_cscr_drain dbg x0 fuel C) s.
  Proof.
    intros dbg. induction fuel as [|fuel IH]; intros s pend k w H; cbn [a_cscr_drain]; [apply op_out_of_fuel|].
    apply op_get_k. pose proof H as (W & _). rewrite (cscr_wf_len W). destruct pend as [|y pend].
    - cbn [length Nat.ltb Nat.leb]. apply op_ret. intros _. exact H.
    - cbn [length Nat.ltb Nat.leb]. eapply op_k; [apply (@cscr_perform_hardy dbg s _ k w H); discriminate|auto|].
      intros s' r Hr. destruct r as [[]|e]; [|apply op_ret; discriminate]. destruct (Hr eq_refl) as (m & H'). apply (IH _ _ _ _ H').
  Qed.

  Lemma cscr_hardy_intro : forall fuel s pend k w, cscr_hardy s pend k w -> hardy_c (a_cscr_consumer false x0 fuel C) s k (length w).
  Proof.
    intros fuel s pend k w H.
    assert (HF : forall s pend k w, cscr_hardy s pend k w -> exists pend w, cscr_hardy s pend 0 w /\ 0 <= length w).
    { clear s pend k w H. intros s pend k w (W & Hc). exists pend, []. split; [|cbn; lia]. split; [|exact Hc].
      destruct W as (HQ & Ho & Hi). split; [exact (lq_forget (fixed_lawful cap) HQ)|auto]. }
    assert (HD : forall s, D s -> exists pend w, cscr_hardy s pend 0 w /\ 0 <= length w).
    { intros s0 (pend0 & k0 & w0 & H0). exact (HF _ _ _ _ H0). }
    apply hardy_consumer_of with (Inv := fun s k n => exists pend w, cscr_hardy s pend k w /\ n <= length w); [..|eauto]; clear s pend k w H.
    - intros s k n (pend & w & H & Hn). eauto.
    - intros x s k n (pend & w & H & Hn). pose proof H as (W & Hc). pose proof W as (HQ & Ho & Hi). unfold a_cscr_consume.
      destruct (cscr_wf_cap W) as [_ Hle]. apply op_sync_k. destruct (Nat.eq_dec (length pend) cap) as [Ef|Ef].
      + rewrite (lq_enqueue_full (fixed_lawful cap) x HQ Ef). cbn [bind safely fst snd].
        assert (H' : cscr_hardy (cs_with_buffer (cs_buffer s) s) pend k w) by (split; [unfold cscr_wf; cbn; auto|exact Hc]).
        eapply op_k; [apply (cscr_drain_hardy false fuel H')|exact HD|]. intros s' r Hr. destruct r as [[]|e]; [|apply op_ret; discriminate].
        destruct (Hr eq_refl) as ((HQ' & Ho' & Hi') & Hc'). pose proof HQ' as (Hp & _).
        destruct (lq_enqueue (fixed_lawful cap) x HQ') as (b & E2 & HQ2); [cbn; lia|]. apply op_sync_k. rewrite E2. cbn [bind safely fst snd].
        apply op_attempt_k. cbn [debug_assert andb safely]. apply op_ret.
        intros _. apply HF with (pend := [] ++ [x]) (k := 0) (w := []). split; [unfold cscr_wf; cbn; auto|exact Hc'].
      + destruct (lq_enqueue (fixed_lawful cap) x HQ) as (b & E2 & HQ2); [lia|]. rewrite E2. cbn [bind safely fst snd]. apply op_ret.
        intros _. apply HF with (pend := pend ++ [x]) (k := 0) (w := []). split; [unfold cscr_wf; cbn; auto|exact Hc].
    - intros f s k n (pend & w & H & Hn). unfold a_cscr_close. eapply op_k; [apply (cscr_drain_hardy false fuel H)|auto|].
      intros s' r Hr. destruct r as [[]|e]; [|apply op_ret; exact Logic.I]. destruct (Hr eq_refl) as (_ & k' & w' & Hc).
      inner (hardy_close f Hc); auto.
    - intros s k n (pend & w & H & Hn). unfold a_cscr_flush. eapply op_k; [apply (cscr_drain_hardy false fuel H)|exact HD|].
      intros s' r Hr. destruct r as [[]|e]; [|apply op_ret; discriminate]. destruct (Hr eq_refl) as (W' & k' & w' & Hc).
      destruct W' as (HQ' & Ho' & Hi'). inner (hardy_flush Hc).
      + intros i Hi2. apply HD. exists [], k, w. split; [unfold cscr_wf; cbn; auto|exists 0, 0; exact Hi2].
      + intros i r Hr2 Hok. exists [], w. split; [|exact Hn]. split; [unfold cscr_wf; cbn; auto|eauto].
    - intros s k n (pend & w & H & Hn). pose proof H as (W & Hc). pose proof W as (HQ & Ho & Hi). unfold a_cscr_expose. apply op_get_k.
      destruct (cscr_wf_cap W) as [Ec Hle]. rewrite (cscr_wf_len W), Ec.
      destruct (length pend <? cap) eqn:El.
      + apply Nat.ltb_lt in El. destruct (lq_expose_slots (fixed_lawful cap) HQ El) as (b & m & E2 & _ & _ & HQ2).
        apply op_sync_k. rewrite E2. cbn [bind expect safely fst snd]. apply op_ret.
        intros j Ej. injection Ej as <-. exists pend, []. split; [|cbn; lia]. split; [unfold cscr_wf; cbn; auto|exact Hc].
      + eapply op_k; [apply (cscr_drain_hardy false fuel H)|exact HD|]. intros s' r Hr. destruct r as [[]|e]; [|apply op_ret; discriminate].
        destruct (Hr eq_refl) as ((HQ' & Ho' & Hi') & Hc'). pose proof HQ' as (Hp & _).
        destruct (lq_expose_slots (fixed_lawful cap) HQ') as (b & m & E2 & _ & _ & HQ2); [cbn; lia|].
        apply op_sync_k. rewrite E2. cbn [bind expect safely fst snd]. apply op_ret.
        intros j Ej. injection Ej as <-. exists [], []. split; [|cbn; lia]. split; [unfold cscr_wf; cbn; auto|exact Hc'].
    - intros ys s k n (pend & w & ((HQ & Ho & Hi) & Hc) & Hn) Hy. exists pend, (overlay ys w). split.
      + split; [|exact Hc]. unfold cscr_wf. cbn [cscr_write cs_with_buffer cs_buffer cs_operations cs_index]. splits; auto.
        exact (lq_write (fixed_lawful cap) ys HQ Hy).
      + rewrite length_overlay_max. lia.
    - intros n s k m (pend & w & ((HQ & Ho & Hi) & Hc) & Hm) Hn. apply op_sync. unfold cscr_consume_slots.
      destruct (lq_consider_enqueued (fixed_lawful cap) n HQ) as (b & E1 & HQ'); [lia|]. rewrite E1. cbn.
      intros _. exists (pend ++ firstn n w), (skipn n w). split; [split; [unfold cscr_wf; cbn; auto|exact Hc]|]. rewrite skipn_length. lia.
  Qed.
End ConsumerScrambler.

Lemma cscr_consumer_hardy : forall S T F E x0 fuel (C : a_bulk_consumer S T F E) s pat cap k w, 0 < cap -> hardy_c C s k w ->
  hardy_c (a_cscr_consumer false x0 fuel C) (cscr_new_with_capacity x0 s pat cap) 0 0.
Proof.
  intros S T F E x0 fuel C s pat cap k w Hc H.
  apply cscr_hardy_intro with (cap := cap) (ops := if cscr_make_progress pat then pat else pat ++ [ScConsume]) (pend := []) (w := []).
  split; [|exists k, w; exact H]. unfold cscr_wf, cscr_new_with_capacity, fixed_new. cbn. splits; [now apply fixed_new_R|reflexivity|].
  destruct (cscr_make_progress pat) eqn:Ep; [destruct pat; [discriminate|cbn; lia]|rewrite app_length; cbn; lia].
Qed.

(** ** Objects without bulk methods *)
Section Buffered.
  Context {S T F E : Type}.

  Section P.
    Variables (sl : bool) (P : a_buffered_producer S T F E).
    Notation H_P := (hardy_buffered_producer sl P).
    Lemma hardy_bp_produce : forall s, H_P s -> ok_polls H_P (fun s' r => forall i, r = Ok (inl i) -> H_P s') (ap_produce P) s.
    Proof.
      intros s H. destruct (@hardy_step _ _ _ _ _ _ _ _ _ _ BProduce H eq_refl) as [_ Hs]. apply op_await_ret in Hs.
      eapply op_mono; [..|exact Hs]; cbn; auto. intros s' r H' i ->. exact H'.
    Qed.
    Lemma hardy_bp_slurp : forall s, sl = true -> H_P s -> ok_polls H_P (fun s' r => r = Ok tt -> H_P s') (ap_slurp P) s.
    Proof.
      intros s Hsl H. destruct (@hardy_step _ _ _ _ _ _ _ _ _ _ BSlurp H Hsl) as [_ Hs]. apply op_await_ret in Hs.
      eapply op_mono; [..|exact Hs]; cbn; auto. intros s' r H' ->. exact H'.
    Qed.
    Lemma hardy_bp_intro : forall (Inv : S -> Prop),
      (forall s, Inv s -> ok_polls Inv (fun s' r => forall i, r = Ok (inl i) -> Inv s') (ap_produce P) s) ->
      (forall s, sl = true -> Inv s -> ok_polls Inv (fun s' r => r = Ok tt -> Inv s') (ap_slurp P) s) ->
      forall s, Inv s -> H_P s.
    Proof.
      intros Inv H1 H2 s HI. apply hardy_intro with (Inv := fun s (over : bool) => over = true \/ Inv s); [|now right].
      clear s HI. intros s [|] o HI Ho; [discriminate|]. destruct HI as [HI|HI]; [discriminate|]. split; [now right|]. destruct o; cbn [abp_future].
      - eapply op_k; [apply (H1 _ HI)|now right|]. intros s' [[i|f]|e] H; apply op_ret; cbn; auto. right. eauto.
      - eapply op_k; [apply (H2 _ Ho HI)|now right|]. intros s' [[]|e] H; apply op_ret; cbn; auto.
    Qed.
  End P.

  Section C.
    Variable C : a_buffered_consumer S T F E.
    Notation H_C := (hardy_buffered_consumer C).
    Lemma hardy_bc_consume : forall s x, H_C s -> ok_polls H_C (fun s' r => r = Ok tt -> H_C s') (ac_consume C x) s.
    Proof.
      intros s x H. destruct (@hardy_step _ _ _ _ _ _ _ _ _ _ (BConsume x) H eq_refl) as [_ Hs]. cbn [abc_future] in Hs.
      eapply op_mono; [..|exact Hs]; cbn; auto. intros s' r H' ->. exact H'.
    Qed.
    Lemma hardy_bc_close : forall s f, H_C s -> ok_polls (fun _ => True) (fun _ _ => True) (ac_close C f) s.
    Proof.
      intros s f H. destruct (@hardy_step _ _ _ _ _ _ _ _ _ _ (BClose f) H eq_refl) as [_ Hs]. cbn [abc_future] in Hs.
      eapply op_mono; [..|exact Hs]; cbn; auto.
    Qed.
    Lemma hardy_bc_flush : forall s, H_C s -> ok_polls H_C (fun s' r => r = Ok tt -> H_C s') (ac_flush C) s.
    Proof.
      intros s H. destruct (@hardy_step _ _ _ _ _ _ _ _ _ _ BFlush H eq_refl) as [_ Hs]. cbn [abc_future] in Hs.
      eapply op_mono; [..|exact Hs]; cbn; auto. intros s' r H' ->. exact H'.
    Qed.
    Lemma hardy_bc_intro : forall (Inv : S -> Prop),
      (forall x s, Inv s -> ok_polls Inv (fun s' r => r = Ok tt -> Inv s') (ac_consume C x) s) ->
      (forall f s, Inv s -> ok_polls (fun _ => True) (fun _ _ => True) (ac_close C f) s) ->
      (forall s, Inv s -> ok_polls Inv (fun s' r => r = Ok tt -> Inv s') (ac_flush C) s) ->
      forall s, Inv s -> H_C s.
    Proof.
      intros Inv H1 H2 H3 s HI. apply hardy_intro with (Inv := fun s (over : bool) => over = true \/ Inv s); [|now right].
      clear s HI. intros s [|] o HI Ho; [discriminate|]. destruct HI as [HI|HI]; [discriminate|]. split; [destruct o; cbn; auto|]. destruct o; cbn [abc_future].
      - eapply op_mono; [..|apply (H1 x _ HI)]; cbn; auto. intros s' [[]|e] H; cbn; auto.
      - eapply op_mono; [..|apply (H2 f _ HI)]; cbn; auto.
      - eapply op_mono; [..|apply (H3 _ HI)]; cbn; auto. intros s' [[]|e] H; cbn; auto.
    Qed.
  End C.

  Lemma hardy_p_buffered : forall sl (P : a_bulk_producer S T F E) s k, hardy_p sl P s k -> hardy_buffered_producer sl P s.
  Proof.
    intros sl P s k H. apply hardy_bp_intro with (Inv := fun s => exists k, hardy_p sl P s k); [..|eauto]; clear s k H.
    - intros s (k & H). eapply op_mono; [..|apply (hardy_produce H)]; cbn; eauto.
    - intros s Hsl (k & H). eapply op_mono; [..|apply (hardy_slurp Hsl H)]; cbn; eauto.
  Qed.
  Lemma hardy_c_buffered : forall (C : a_bulk_consumer S T F E) s k w, hardy_c C s k w -> hardy_buffered_consumer C s.
  Proof.
    intros C s k w H. apply hardy_bc_intro with (Inv := fun s => exists k w, hardy_c C s k w); [..|eauto]; clear s k w H.
    - intros x s (k & w & H). eapply op_mono; [..|apply (hardy_consume x H)]; cbn; eauto.
    - intros f s (k & w & H). apply (hardy_close f H).
    - intros s (k & w & H). eapply op_mono; [..|apply (hardy_flush H)]; cbn; eauto.
  Qed.
End Buffered.

Section MapItem.
  Context {S T F E : Type}.

  Lemma map_item_producer_hardy : forall U W sl (P : a_buffered_producer S T F E) (f : W -> T -> W * U) s w,
    hardy_buffered_producer sl P s -> hardy_buffered_producer sl (a_map_item_producer P f) (mk_map_item s w).
  Proof.
    intros U W sl P f s w H. apply hardy_bp_intro with (Inv := fun s => hardy_buffered_producer sl P (mi_inner s)); [..|exact H]; clear s w H.
    - intros s H. cbn [ap_produce a_map_item_producer]. unfold a_map_item_produce. inner_k (hardy_bp_produce H); cbn; auto.
      intros i [[x|fin]|e] Hi; [|cbn; discriminate..]. cbn. destruct (f (mi_closure s) x) as [w y]. cbn. eauto.
    - intros s Hsl H. inner (hardy_bp_slurp Hsl H); cbn; auto.
  Qed.
  Lemma map_item_consumer_hardy : forall U W (C : a_buffered_consumer S T F E) (f : W -> U -> W * T) s w,
    hardy_buffered_consumer C s -> hardy_buffered_consumer (a_map_item_consumer C f) (mk_map_item s w).
  Proof.
    intros U W C f s w H. apply hardy_bc_intro with (Inv := fun s => hardy_buffered_consumer C (mi_inner s)); [..|exact H]; clear s w H.
    - intros x s H. cbn [ac_consume a_map_item_consumer]. unfold a_map_item_consume. apply op_get_k. destruct (f (mi_closure s) x) as [w y].
      apply op_put_k. inner (hardy_bc_consume y H); cbn; auto.
    - intros fin s H. inner (hardy_bc_close fin H); auto.
    - intros s H. inner (hardy_bc_flush H); cbn; auto.
  Qed.
End MapItem.

(** ** Pipes *)
Lemma op_suspended : forall S X (D : S -> Prop) (Q : S -> X -> Prop) f s, ok_polls D Q f s -> ok_polls (fun s' => D s' /\ In s' (suspended f s)) Q f s.
Proof. intros S X D Q f s H. apply op_run in H. apply op_run. destruct H as [H1 H2]. split; [|exact H2]. auto. Qed.

Section Pipes.
  Context {SP SC T F PE CE : Type}.

  Section Plain.
    Variables (sl : bool) (P : a_buffered_producer SP T F PE) (C : a_buffered_consumer SC T F CE).
    Notation IP := (hardy_buffered_producer sl P).
    Notation IC := (hardy_buffered_consumer C).
    Notation Dropped := (pipe_dropped IP IC C).

    Lemma pipe_close_hardy : forall X (g : res unit CE -> res X (pipe_error PE CE)) (Q : _ -> _ -> Prop) f sp sc, IC sc ->
      (forall sc' r, Q (sp, sc') (g r)) ->
      forall k, (forall r, k r = ret (g r)) -> ok_polls Dropped Q (await (on_snd (ac_close C f)) k) (sp, sc).
    Proof.
      intros X g Q f sp sc Hc HQ k Hk. inner_k (@op_suspended _ _ _ _ _ _ (hardy_bc_close f Hc)).
      - intros sc' [_ Hs]. right. exists f, sc. split; [exact Hc|exact Hs].
      - intros sc' r _. rewrite Hk. apply op_ret. cbn. apply HQ.
    Qed.

    Lemma pipe_hardy : forall fuel sp sc, IP sp -> IC sc ->
      ok_polls Dropped (fun x r => pipe_leaves (fun _ => False) IP IC (x, r)) (a_pipe fuel P C) (sp, sc).
    Proof.
      induction fuel as [|fuel IH]; intros sp sc Hp Hc; cbn [a_pipe]; [apply op_out_of_fuel|].
      inner_k (hardy_bp_produce Hp); [left; cbn; auto|]. intros sp' [[i|f]|e] H; cbn [snd].
      - inner_k (hardy_bc_consume i Hc); [left; cbn; eauto|]. intros sc' [[]|e] H2; cbn [fst]; [eapply IH; eauto|exact Logic.I].
      - eapply pipe_close_hardy with (g := fun r => match r with Ok tt => Ok tt | Err e => Err (PipeConsumer e) end); [exact Hc| |intros [[]|e]; reflexivity].
        intros sc' [[]|e]; cbn; auto. intros [].
      - apply op_ret. exact Hc.
    Qed.

    Lemma pipe_at_most_hardy : forall todo piped sp sc, IP sp -> IC sc ->
      ok_polls Dropped (fun x r => pipe_leaves (fun n => n = piped + todo) IP IC (x, r)) (a_pipe_at_most_loop todo P C piped) (sp, sc).
    Proof.
      induction todo as [|todo IH]; intros piped sp sc Hp Hc; cbn [a_pipe_at_most_loop]; [apply op_ret; cbn; auto|].
      inner_k (hardy_bp_produce Hp); [left; cbn; auto|]. intros sp' [[i|f]|e] H; cbn [snd].
      - inner_k (hardy_bc_consume i Hc); [left; cbn; eauto|]. intros sc' [[]|e] H2; cbn [fst]; [|exact Logic.I].
        replace (piped + Datatypes.S todo) with (piped + 1 + todo) by lia. eapply IH; eauto.
      - eapply pipe_close_hardy with (g := fun r => match r with Ok tt => Ok piped | Err e => Err (PipeConsumer e) end); [exact Hc| |intros [[]|e]; reflexivity].
        intros sc' [[]|e]; cbn; auto. intros H3. lia.
      - apply op_ret. exact Hc.
    Qed.
  End Plain.

  Section Bulk.
    Variables (sl : bool) (P : a_bulk_producer SP T F PE) (C : a_bulk_consumer SC T F CE).
    Hypothesis honest : honest_count (blocking_bulk_consumer C).
    Notation IP := (fun s => hardy_p sl P s 0).
    Notation IC := (fun s => hardy_c C s 0 0).
    Notation Dropped := (pipe_dropped IP IC C).

    Lemma bulk_pipe_close_hardy : forall X (g : res unit CE -> res X (pipe_error PE CE)) (Q : _ -> _ -> Prop) f sp sc k w, hardy_c C sc k w ->
      (forall sc' r, Q (sp, sc') (g r)) ->
      forall k, (forall r, k r = ret (g r)) -> ok_polls Dropped Q (await (on_snd (ac_close C f)) k) (sp, sc).
    Proof.
      intros X g Q f sp sc k0 w Hc HQ k Hk. inner_k (@op_suspended _ _ _ _ _ _ (hardy_close f Hc)).
      - intros sc' [_ Hs]. right. exists f, sc. split; [exact (hardy_c_forget Hc)|exact Hs].
      - intros sc' r _. rewrite Hk. apply op_ret. cbn. apply HQ.
    Qed.

    Lemma bulk_pipe_hardy : forall fuel sp sc k k' w, hardy_p sl P sp k -> hardy_c C sc k' w ->
      ok_polls Dropped (fun x r => pipe_leaves (fun _ => False) IP IC (x, r)) (a_bulk_pipe fuel P C) (sp, sc).
    Proof.
      induction fuel as [|fuel IH]; intros sp sc k k' w Hp Hc; cbn [a_bulk_pipe]; [apply op_out_of_fuel|].
      inner_k (hardy_expose Hp); [left; cbn; split; [assumption|exact (hardy_c_forget Hc)]|]. intros sp' [[ys|f]|e] H; cbn [snd].
      - inner_k (@op_eq _ _ _ _ _ _ (hardy_bulk_consume ys Hc)); [left; cbn; split; [exact (hardy_p_forget (H _ eq_refl))|assumption]|].
        intros sc' [n|e] [H2 En]; cbn [fst]; [|exact Logic.I].
        inner_k (hardy_consider (H _ eq_refl) (honest _ _ En)); [left; cbn; split; [assumption|eauto]|]. intros sp2 [[]|e] H3; cbn [snd].
        + eapply IH; eauto.
        + apply op_ret. cbn. eauto.
      - eapply bulk_pipe_close_hardy with (g := fun r => match r with Ok tt => Ok tt | Err e => Err (PipeConsumer e) end); [exact Hc| |intros [[]|e]; reflexivity].
        intros sc' [[]|e]; cbn; auto. intros [].
      - apply op_ret. cbn. exact (hardy_c_forget Hc).
    Qed.

    Lemma bulk_pipe_at_most_hardy : forall fuel count piped sp sc k k' w, piped <= count -> hardy_p sl P sp k -> hardy_c C sc k' w ->
      ok_polls Dropped (fun x r => pipe_leaves (fun n => n = count) IP IC (x, r)) (a_bulk_pipe_at_most_loop fuel P C count piped) (sp, sc).
    Proof.
      induction fuel as [|fuel IH]; intros count piped sp sc k k' w Hle Hp Hc; cbn [a_bulk_pipe_at_most_loop]; [apply op_out_of_fuel|].
      destruct (piped <? count) eqn:El.
      2: { apply op_ret. cbn. intros _. split; [exact (hardy_p_forget Hp)|exact (hardy_c_forget Hc)]. }
      apply Nat.ltb_lt in El.
      inner_k (hardy_expose Hp); [left; cbn; split; [assumption|exact (hardy_c_forget Hc)]|]. intros sp' [[ys|f]|e] H; cbn [snd].
      - apply op_attempt_k. rewrite csub_ok by lia. cbn [safely]. apply op_attempt_k. rewrite slice_to_ok by lia. cbn [safely].
        inner_k (@op_eq _ _ _ _ _ _ (hardy_bulk_consume (firstn (Nat.min (count - piped) (length ys)) ys) Hc)); [left; cbn; split; [exact (hardy_p_forget (H _ eq_refl))|assumption]|].
        intros sc' [n|e] [H2 En]; cbn [fst]; [|exact Logic.I].
        apply honest in En. rewrite firstn_length in En. assert (Hn : n <= length ys) by lia.
        inner_k (hardy_consider (H _ eq_refl) Hn); [left; cbn; split; [assumption|eauto]|]. intros sp2 [[]|e] H3; cbn [snd].
        + eapply IH; eauto. lia.
        + apply op_ret. cbn. eauto.
      - eapply bulk_pipe_close_hardy with (g := fun r => match r with Ok tt => Ok piped | Err e => Err (PipeConsumer e) end); [exact Hc| |intros [[]|e]; reflexivity].
        intros sc' [[]|e]; cbn; auto. intros H3. lia.
      - apply op_ret. cbn. exact (hardy_c_forget Hc).
    Qed.
  End Bulk.
End Pipes.

(** ** Whole slices *)
Section Slices.
  Context {S T F E : Type}.

  Lemma consume_full_slice_hardy : forall (C : a_buffered_consumer S T F E) buf i s, hardy_buffered_consumer C s ->
    ok_polls (hardy_buffered_consumer C) (fun s' r => is_ok r = true -> hardy_buffered_consumer C s') (a_consume_full_slice_from C i buf) s.
  Proof.
    intros C. induction buf as [|y buf IH]; intros i s H; cbn [a_consume_full_slice_from]; [apply op_ret; auto|].
    eapply op_k; [apply (hardy_bc_consume y H)|auto|]. intros s' [[]|e] Hs; [apply IH; auto|apply op_ret; discriminate].
  Qed.

  Lemma overwrite_full_slice_hardy : forall sl (P : a_buffered_producer S T F E) todo i buf s, i + todo = length buf -> hardy_buffered_producer sl P s ->
    ok_polls (hardy_buffered_producer sl P) (fun s' x => length (fst x) = length buf /\ (is_ok (snd x) = true -> hardy_buffered_producer sl P s'))
      (a_overwrite_full_slice_from P todo i buf) s.
  Proof.
    intros sl P. induction todo as [|todo IH]; intros i buf s Hl H; cbn [a_overwrite_full_slice_from]; [apply op_ret; auto|].
    eapply op_k; [apply (hardy_bp_produce H)|auto|]. intros s' [[y|f]|e] Hs; [|apply op_ret; cbn; split; [reflexivity|discriminate]..].
    apply op_attempt_k. rewrite index_set_ok by lia. cbn [safely].
    assert (Hb : length (blit i [y] buf) = length buf) by (apply length_blit; cbn; lia).
    rewrite <- Hb. apply IH; [lia|eauto].
  Qed.

  Lemma bulk_consume_full_slice_hardy : forall (C : a_bulk_consumer S T F E) fuel i buf s k w, hardy_c C s k w ->
    ok_polls (fun s' => hardy_c C s' 0 0) (fun s' r => is_ok r = true -> hardy_c C s' 0 0) (a_bulk_consume_full_slice_loop fuel C i buf) s.
  Proof.
    intros C. induction fuel as [|fuel IH]; intros i buf s k w H; cbn [a_bulk_consume_full_slice_loop]; [apply op_out_of_fuel|].
    destruct (i <? length buf) eqn:El; [|apply op_ret; intros _; exact (hardy_c_forget H)].
    apply Nat.ltb_lt in El. apply op_attempt_k. rewrite slice_from_ok by lia. cbn [safely].
    eapply op_k; [apply (hardy_bulk_consume _ H)|auto|]. intros s' [n|e] Hs; [eapply IH; eauto|apply op_ret; discriminate].
  Qed.

  Lemma bulk_overwrite_full_slice_hardy : forall sl (P : a_bulk_producer S T F E), keeps_length (blocking_bulk_producer P) -> forall fuel i buf s k, hardy_p sl P s k ->
    ok_polls (fun s' => hardy_p sl P s' 0) (fun s' x => length (fst x) = length buf /\ (is_ok (snd x) = true -> hardy_p sl P s' 0))
      (a_bulk_overwrite_full_slice_loop fuel P i buf) s.
  Proof.
    intros sl P HL. induction fuel as [|fuel IH]; intros i buf s k H; cbn [a_bulk_overwrite_full_slice_loop]; [apply op_out_of_fuel|].
    destruct (i <? length buf) eqn:El; [|apply op_ret; split; [reflexivity|]; intros _; exact (hardy_p_forget H)].
    apply Nat.ltb_lt in El. apply op_attempt_k. rewrite slice_from_ok by lia. cbn [safely].
    eapply op_k; [apply (@op_eq _ _ _ _ _ _ (hardy_bulk_produce (skipn i buf) H))|auto|]. intros s' [b r] [Hs Eb]. cbn [snd] in Hs. apply HL in Eb.
    rewrite skipn_length in Eb.
    assert (Hb : length (firstn i buf ++ b) = length buf) by (rewrite app_length, firstn_length; lia).
    destruct r as [[n|f]|e]; [|apply op_ret; cbn; split; [exact Hb|discriminate]..]. rewrite <- Hb. eapply IH. eauto.
  Qed.
End Slices.

Lemma a_default_keeps_length : forall S T F E (produce : fut S (res (T + F) E)) slurp expose consider,
  keeps_length (blocking_bulk_producer (a_bulk_producer_of produce slurp expose consider)).
Proof.
  intros S T F E produce slurp expose consider buf s s' buf' r H.
  apply (@default_keeps_length S T F E (run produce) (run slurp) (run expose) (fun n => run (consider n)) buf s s' buf' r).
  rewrite <- H. symmetry. exact (run_bulk_produce expose consider buf s).
Qed.
Lemma a_default_honest_count : forall S T F E (consume : T -> fut S (res unit E)) (close : F -> fut S (res unit E)) flush expose write slots,
  honest_count (blocking_bulk_consumer (a_bulk_consumer_of consume close flush expose write slots)).
Proof.
  intros S T F E consume close flush expose write slots buf s s' n H.
  apply (@default_honest_count S T F E (fun x => run (consume x)) (fun f => run (close f)) (run flush) (run expose) write (fun n => run (slots n)) buf s s' n).
  rewrite <- H. symmetry. exact (run_bulk_consume expose write slots buf s).
Qed.

(** ** Codecs *)
Lemma endian_encode_hardy : forall w, hardy_encode (a_endian_encode w).
Proof.
  intros w S F E C v s H. apply op_endures. split; [exact H|]. unfold a_endian_encode. eapply op_k; [apply (@bulk_consume_full_slice_hardy _ _ _ _ C _ 0 _ s 0 0 H)|auto|].
  intros s' [u|e] Hs; apply op_ret; cbn in *; [auto|discriminate].
Qed.
Lemma endian_decode_hardy : forall w, hardy_decode (a_endian_decode w).
Proof.
  intros w S F E P sl s HL H. apply op_endures. split; [exact H|]. unfold a_endian_decode. eapply op_k; [apply (@bulk_overwrite_full_slice_hardy _ _ _ _ sl P HL _ 0 _ s 0 H)|auto|].
  intros s' [b [[]|e]] [Hb Hs]; apply op_ret; cbn in *; [auto|discriminate].
Qed.

Section Codecs.
  Context {S F E V O RT : Type}.

  Lemma encoder_hardy : forall encode (C : a_bulk_consumer S byte F E), hardy_encode encode -> forall s,
    hardy_consumer C s -> hardy_buffered_consumer (@a_encoder S F E V encode C) s.
  Proof.
    intros encode C HE s H. apply hardy_bc_intro with (Inv := hardy_consumer C); [..|exact H]; clear s H.
    - intros x s H. pose proof (proj2 (proj1 (op_endures (hardy_consumer C) _ _ _) (HE _ _ _ C x s H))) as Ho.
      eapply op_mono; [..|exact Ho]; cbn; auto. intros s' r Hs ->. auto.
    - intros f s H. exact (hardy_close f H).
    - intros s H. exact (hardy_flush H).
  Qed.
  Lemma relative_encoder_hardy : forall relative_encode (C : a_bulk_consumer S byte F E), (forall r : RT, hardy_encode (relative_encode r)) -> forall s r,
    hardy_consumer C s -> hardy_buffered_consumer (@a_relative_encoder S F E V RT relative_encode C) (mk_relative s r).
  Proof.
    intros encode C HE s r H. apply hardy_bc_intro with (Inv := fun s => hardy_consumer C (rel_inner s)); [..|exact H]; clear s r H.
    - intros x s H. cbn [ac_consume a_relative_encoder]. apply op_get_k.
      pose proof (proj2 (proj1 (op_endures (hardy_consumer C) _ _ _) (HE (relative_to s) _ _ _ C x (rel_inner s) H))) as Ho.
      inner Ho; cbn; auto. intros i r Hs ->. auto.
    - intros f s H. inner (hardy_close f H); auto.
    - intros s H. inner (hardy_flush H); cbn; auto.
  Qed.

  Lemma decoder_produce_hardy : forall decode (P : a_bulk_producer S byte F E) sl, @hardy_decode V O decode -> keeps_length (blocking_bulk_producer P) ->
    forall s, hardy_producer sl P s ->
    ok_polls (hardy_producer sl P) (fun s' r => forall i, r = Ok (inl i) -> hardy_producer sl P s') (a_decoder_produce decode P) s.
  Proof.
    intros decode P sl HD HL s H. unfold a_decoder_produce. eapply op_k; [apply (hardy_expose H)|auto|].
    intros s' [[ys|f]|e] Hs; [|apply op_ret; discriminate..].
    assert (H' : hardy_producer sl P s') by exact (hardy_p_forget (Hs _ eq_refl)).
    pose proof (proj2 (proj1 (op_endures (hardy_producer sl P) _ _ _) (HD _ _ _ P sl s' HL H'))) as Ho.
    eapply op_k; [exact Ho|auto|]. intros s2 [v|e] H2; apply op_ret; cbn in *; [auto|discriminate].
  Qed.
  Lemma decoder_slurp_hardy : forall (P : a_bulk_producer S byte F E) sl s, sl = true -> hardy_producer sl P s ->
    ok_polls (hardy_producer sl P) (fun s' r => r = Ok tt -> hardy_producer sl P s') (@a_decoder_slurp S F E O P) s.
  Proof.
    intros P sl s Hsl H. unfold a_decoder_slurp. eapply op_k; [apply (@hardy_slurp _ _ _ _ sl P s 0 Hsl H)|auto|].
    intros s' [[]|e] Hs; apply op_ret; cbn in *; [intros _; exact (Hs eq_refl)|discriminate].
  Qed.
  Lemma decoder_hardy : forall decode (P : a_bulk_producer S byte F E) sl, @hardy_decode V O decode -> keeps_length (blocking_bulk_producer P) -> forall s,
    hardy_producer sl P s -> hardy_buffered_producer sl (a_decoder decode P) s.
  Proof.
    intros decode P sl HD HL s H. apply hardy_bp_intro with (Inv := hardy_producer sl P); [..|exact H]; clear s H.
    - intros s H. apply (decoder_produce_hardy HD HL H).
    - intros s Hsl H. apply (decoder_slurp_hardy Hsl H).
  Qed.
  Lemma relative_decoder_hardy : forall relative_decode (P : a_bulk_producer S byte F E) sl, (forall r : RT, @hardy_decode V O (relative_decode r)) ->
    keeps_length (blocking_bulk_producer P) -> forall s r, hardy_producer sl P s -> hardy_buffered_producer sl (a_relative_decoder relative_decode P) (mk_relative s r).
  Proof.
    intros decode P sl HD HL s r H. apply hardy_bp_intro with (Inv := fun s => hardy_producer sl P (rel_inner s)); [..|exact H]; clear s r H.
    - intros s H. cbn [ap_produce a_relative_decoder]. apply op_get_k. inner (decoder_produce_hardy (HD (relative_to s)) HL H); cbn; auto.
    - intros s Hsl H. inner (decoder_slurp_hardy Hsl H); cbn; auto.
  Qed.
End Codecs.

(** ** Lawful objects *)
Section Lawful.
  Context {S T F E : Type}.

  Lemma lawful_producer_hardy : forall (P : a_bulk_producer S T F E) P0 R D sl,
    same_bulk_producer (blocking_bulk_producer P) P0 -> lawful_producer_core P0 R D -> (sl = true -> lawful_slurp P0 R D) -> waiting_producer P R ->
    P = a_bulk_producer_of (ap_produce P) (ap_slurp P) (ap_expose P) (ap_consider P) ->
    (forall s xs l, R s xs l 0 -> safely (fun x => snd x = Ok tt -> R (fst x) xs l 0) (p_consider P0 0 s)) ->
    forall s xs l k, R s xs l k -> hardy_p sl P s k.
  Proof.
    intros P P0 R D sl [[Sp Ss] [Se [Sc Sb]]] L LS WP EP H0 s xs l k H. unfold same_producer in Sp. cbn in Sp, Ss, Se, Sc. rewrite EP.
    apply hardy_producer_of with (Inv := fun s k => exists xs l, R s xs l k); [..|eauto]; clear s xs l k H.
    - intros s k (xs & l & H). exists xs, l. exact (lp_forget L H).
    - intros s k (xs & l & H). apply op_run. split.
      { intros s' Hs. destruct (WP _ _ _ _ s' H) as (k' & H'); [auto|]. exists xs, l. exact (lp_forget L H'). }
      rewrite Sp. destruct xs as [|x xs].
      + destruct (lp_produce_last L H) as (s' & E1 & _). rewrite E1. cbn. destruct l; discriminate.
      + destruct (lp_produce L H) as (s' & E1 & H'). rewrite E1. cbn. eauto.
    - intros s k Hsl (xs & l & H). apply op_run. split.
      { intros s' Hs. destruct (WP _ _ _ _ s' H) as (k' & H'); [auto|]. exists xs, l. exact (lp_forget L H'). }
      rewrite Ss. destruct (LS Hsl _ _ _ _ H) as [(s' & E1 & H')|(s' & e & E1 & _)]; rewrite E1; cbn; [eauto|discriminate].
    - intros s k (xs & l & H). apply op_run. split.
      { intros s' Hs. destruct (WP _ _ _ _ s' H) as (k' & H'); [auto|]. exists xs, l. exact (lp_forget L H'). }
      rewrite Se. destruct xs as [|x xs].
      + destruct (lp_expose_last L H) as (s' & E1 & _). rewrite E1. cbn. destruct l; discriminate.
      + destruct (lp_expose L H) as (s' & ys & rest & E1 & Hne & Hx & H'); [discriminate|]. rewrite E1. cbn.
        intros zs Ez. injection Ez as <-. eauto.
    - intros s k n (xs & l & H) Hn. apply op_run. split.
      { intros s' Hs. destruct (WP _ _ _ _ s' H) as (k' & H'); [eauto 6|]. exists xs, l. exact (lp_forget L H'). }
      rewrite Sc. destruct (Nat.eq_dec k 0) as [->|Hk].
      + replace n with 0 by lia. eapply safely_weaken; [apply (H0 _ _ _ H)|]. cbn. eauto.
      + destruct (lp_consider L n H) as (s' & E1 & H'); [lia|lia|]. rewrite E1. cbn. eauto.
  Qed.

  Lemma lawful_consumer_hardy : forall A (C : a_bulk_consumer S T F E) C0 (M : machine A T F E) R D,
    same_bulk_consumer (blocking_bulk_consumer C) C0 -> lawful_consumer_core C0 M R D -> waiting_consumer C R ->
    C = a_bulk_consumer_of (ac_consume C) (ac_close C) (ac_flush C) (ac_expose C) (ac_write C) (ac_consume_slots C) ->
    (forall s a, R s a 0 [] -> safely (fun x => snd x = Ok tt -> R (fst x) a 0 []) (c_consume_slots C0 0 s)) ->
    forall s a k w, R s a k w -> hardy_c C s k (length w).
  Proof.
    intros A C C0 M R D [[[Sc Sl] Sf] [Se [Sw [Ss Sb]]]] L WC EC H0 s a k w H. cbn in Sc, Sl, Sf, Se, Sw, Ss. rewrite EC.
    apply hardy_consumer_of with (Inv := fun s k n => exists a w, R s a k w /\ n <= length w); [..|eauto]; clear s a k w H.
    - intros s k n (a & w & H & Hn). exists a, []. split; [exact (lc_forget L H)|cbn; lia].
    - intros x s k n (a & w & H & Hn). apply op_run. split.
      { intros s' Hs. destruct (WC _ _ _ _ s' H) as (k' & w' & H'); [eauto 8|]. exists a, []. split; [exact (lc_forget L H')|cbn; lia]. }
      rewrite Sc. destruct (lc_consume L x H) as (s' & E1 & H'). rewrite E1. cbn.
      destruct (m_step M x a) as [a' [u|e]]; [|discriminate]. intros _. exists a', []. auto.
    - intros f s k n (a & w & H & Hn). apply op_run. split; [auto|].
      rewrite Sl. destruct (lc_close L f H) as (s' & E1 & H'). rewrite E1. exact Logic.I.
    - intros s k n (a & w & H & Hn). apply op_run. split.
      { intros s' Hs. destruct (WC _ _ _ _ s' H) as (k' & w' & H'); [eauto 8|]. exists a, []. split; [exact (lc_forget L H')|cbn; lia]. }
      rewrite Sf. destruct (lc_flush L H) as (s' & E1 & H'). rewrite E1. cbn.
      destruct (m_flush M a) as [a' [u|e]]; [|discriminate]. intros _. exists a', w. auto.
    - intros s k n (a & w & H & Hn). apply op_run. split.
      { intros s' Hs. destruct (WC _ _ _ _ s' H) as (k' & w' & H'); [eauto 8|]. exists a, []. split; [exact (lc_forget L H')|cbn; lia]. }
      rewrite Se. destruct (lc_expose L H) as [(s' & m & E1 & _ & H')|(s' & e & a' & E1 & _)]; rewrite E1; cbn; [|discriminate].
      intros j Ej. injection Ej as <-. exists a, []. auto.
    - intros ys s k n (a & w & H & Hn) Hy. rewrite Sw. exists a, (overlay ys w). split; [exact (lc_write L ys H Hy)|]. rewrite length_overlay_max. lia.
    - intros n s k m (a & w & H & Hm) Hn. apply op_run. split.
      { intros s' Hs. destruct (WC _ _ _ _ s' H) as (k' & w' & H'); [eauto 10|]. exists a, []. split; [exact (lc_forget L H')|cbn; lia]. }
      rewrite Ss. destruct (Nat.eq_dec k 0) as [->|Hk].
      + pose proof (lc_wf L H) as Hw. assert (w = []) as -> by (destruct w; [reflexivity|cbn in Hw; lia]). cbn in Hm. assert (m = 0) as -> by lia. assert (n = 0) as -> by lia.
        eapply safely_weaken; [apply (H0 _ _ H)|]. cbn. intros x Hx Ho. exists a, []. auto.
      + pose proof (lc_consume_slots L n H) as Hs. destruct (m_feed M (firstn n w) a) as [[a' j] [e|]].
        * destruct Hs as (s' & E1 & _); [lia|lia|]. rewrite E1. cbn. discriminate.
        * destruct Hs as (s' & E1 & H'); [lia|lia|]. rewrite E1. cbn. intros _. exists a', (skipn n w). split; [exact H'|]. rewrite skipn_length. lia.
  Qed.
End Lawful.

(** Objects that are never pending. *)
Lemma sync_suspended : forall S X (g : S -> outcome (S * X)) s, suspended (sync g) s = [].
Proof. intros S X g s. cbn. destruct (g s) as [[s' x]| |]; reflexivity. Qed.
Lemma sync_bulk_produce_suspended : forall S T F E (expose : S -> outcome (S * res (list T + F) E)) consider buf s,
  suspended (a_bulk_produce (sync expose) (fun n => sync (consider n)) buf) s = [].
Proof.
  intros S T F E expose consider buf s. cbn -[Nat.min]. destruct (expose s) as [[s1 [[ys|f]|e]]| |]; try reflexivity.
  cbn -[Nat.min]. destruct (consider (Nat.min (length ys) (length buf)) s1) as [[s2 [[]|e]]| |]; reflexivity.
Qed.
Lemma sync_waiting : forall S T F E produce slurp expose consider R,
  waiting_producer (@a_bulk_producer_of S T F E (sync produce) (sync slurp) (sync expose) (fun n => sync (consider n))) R.
Proof.
  intros S T F E produce slurp expose consider R s xs l k s' H Hs. exfalso.
  destruct Hs as [Hs|[Hs|[Hs|[(n & Hs)|(buf & Hs)]]]].
  - change (In s' (suspended (sync produce) s)) in Hs. rewrite sync_suspended in Hs. exact Hs.
  - change (In s' (suspended (sync slurp) s)) in Hs. rewrite sync_suspended in Hs. exact Hs.
  - change (In s' (suspended (sync expose) s)) in Hs. rewrite sync_suspended in Hs. exact Hs.
  - change (In s' (suspended (sync (consider n)) s)) in Hs. rewrite sync_suspended in Hs. exact Hs.
  - change (In s' (suspended (a_bulk_produce (sync expose) (fun n => sync (consider n)) buf) s)) in Hs. rewrite sync_bulk_produce_suspended in Hs. exact Hs.
Qed.
Lemma sync_bulk_consume_suspended : forall S T E (expose : S -> outcome (S * res nat E)) (write : list T -> S -> S) slots buf s,
  suspended (a_bulk_consume (sync expose) write (fun n => sync (slots n)) buf) s = [].
Proof.
  intros S T E expose write slots buf s. cbn -[Nat.min]. destruct (expose s) as [[s1 [m|e]]| |]; try reflexivity.
  cbn -[Nat.min]. destruct (slots (Nat.min m (length buf)) _) as [[s2 [[]|e]]| |]; reflexivity.
Qed.
Lemma sync_waiting_consumer : forall S A T F E consume close flush expose write slots (R : S -> A -> nat -> list T -> Prop),
  waiting_consumer (@a_bulk_consumer_of S T F E (fun x => sync (consume x)) (fun f => sync (close f)) (sync flush) (sync expose) write (fun n => sync (slots n))) R.
Proof.
  intros S A T F E consume close flush expose write slots R s a k w s' H Hs. exfalso.
  destruct Hs as [(x & Hs)|[(f & Hs)|[Hs|[Hs|[(n & Hs)|(buf & Hs)]]]]].
  - change (In s' (suspended (sync (consume x)) s)) in Hs. rewrite sync_suspended in Hs. exact Hs.
  - change (In s' (suspended (sync (close f)) s)) in Hs. rewrite sync_suspended in Hs. exact Hs.
  - change (In s' (suspended (sync flush) s)) in Hs. rewrite sync_suspended in Hs. exact Hs.
  - change (In s' (suspended (sync expose) s)) in Hs. rewrite sync_suspended in Hs. exact Hs.
  - change (In s' (suspended (sync (slots n)) s)) in Hs. rewrite sync_suspended in Hs. exact Hs.
  - change (In s' (suspended (a_bulk_consume (sync expose) write (fun n => sync (slots n)) buf) s)) in Hs. rewrite sync_bulk_consume_suspended in Hs. exact Hs.
Qed.

Lemma from_slice_hardy : forall T (l : list T), hardy_p true a_from_slice (from_slice_new l) 0.
Proof.
  intros T l. eapply lawful_producer_hardy; [apply same_from_slice|apply from_slice_core|intros _; apply from_slice_slurp_lawful|apply sync_waiting|reflexivity| |apply fs_rel_new].
  intros s xs l' H. cbn. intros _. rewrite Nat.add_0_r. destruct s. exact H.
Qed.
Lemma empty_hardy : forall T F E (f : F), hardy_p true (@a_empty T F E) (empty_new f) 0.
Proof.
  intros T F E f. eapply lawful_producer_hardy with (R := @empty_rel T F E) (xs := []) (l := Ok f);
    [apply same_empty|apply empty_core|intros _; apply empty_slurp_lawful|apply sync_waiting|reflexivity| |].
  - intros s xs l' H. cbn. intros _. exact H.
  - unfold empty_rel, empty_new. eauto 6.
Qed.
Lemma tp_consider_zero : forall T F E (s : test_producer_state T F E) xs l, tp_rel s xs l 0 ->
  safely (fun x => snd x = Ok tt -> tp_rel (fst x) xs l 0) (p_consider test_producer 0 s).
Proof.
  intros T F E s xs l H. cbn. unfold test_producer_consider. destruct (tp_yield_ok H) as (s' & E1 & H' & _). rewrite E1. cbn [bind].
  unfold tp_check_error. pose proof H' as (Hf & Hl & Hz & Hy). rewrite (fs_not_yet Hf). cbn [bind].
  assert (Hgo : tp_rel (set_inner (mk_from_slice (fs_slice (tp_inner s')) (fs_offset (tp_inner s') + 0)) s') xs l 0).
  { rewrite Nat.add_0_r. destruct s' as [[sl off] la sz y]. exact H'. }
  destruct xs.
  - rewrite Hl. cbn. destruct l; cbn; [intros _; exact Hgo|discriminate].
  - cbn. intros _. exact Hgo.
Qed.
Lemma test_producer_hardy : forall T F E (items : list T) (last : res F E) sizes pattern, match sizes with Some l => Forall (fun n => 1 <= n) l | None => True end ->
  hardy_p true a_test_producer (test_producer_build items last sizes pattern) 0.
Proof.
  intros T F E items last sizes pattern Hs.
  eapply lawful_producer_hardy; [apply same_test_producer|apply test_producer_core|intros _; apply test_producer_slurp_lawful|apply test_producer_waiting|reflexivity|apply tp_consider_zero|apply tp_rel_build, Hs].
Qed.
Lemma into_vec_hardy : forall T (d : T) v, hardy_c (a_into_vec d) (into_vec_from_vec v) 0 0.
Proof.
  intros T d v. eapply lawful_consumer_hardy with (w := []); [apply same_into_vec|apply into_vec_core|apply sync_waiting_consumer|reflexivity| |apply iv_rel_from_vec].
  intros s a H. cbn. intros _. rewrite Nat.add_0_r. destruct s. exact H.
Qed.
Lemma tc_consume_slots_zero : forall T F E (d : T) (e : E) (s : test_consumer_state T F E) a, tc_rel e s a 0 [] ->
  safely (fun x => snd x = Ok tt -> tc_rel e (fst x) a 0 []) (c_consume_slots (test_consumer d) 0 s).
Proof.
  intros T F E d e. intros s a H. cbn. unfold test_consumer_consume_slots. destruct (tc_yield_ok H) as (s' & E1 & H' & _). rewrite E1. cbn [bind].
  pose proof H' as (Hi & Hf & Hl & He & Hfl & Hk & Hz & Hy).
  destruct (Nat.eq_dec (t_left a) 0) as [Ez|Ez].
  - unfold tc_check_error. rewrite Hl, Ez, He. cbn. discriminate.
  - rewrite (tc_check_ok H') by lia. cbn [bind]. cbn. rewrite csub_ok by lia. cbn. intros _. rewrite Nat.sub_0_r, Nat.add_0_r.
    destruct s' as [[v c] fi er le sz y]. exact H'.
Qed.
Lemma test_consumer_hardy : forall T F E (d : T) (e : E) n sizes pattern, match sizes with Some l => Forall (fun n => 1 <= n) l | None => True end ->
  hardy_c (a_test_consumer (F := F) d) (test_consumer_build e n sizes pattern) 0 0.
Proof.
  intros T F E d e n sizes pattern Hs.
  eapply lawful_consumer_hardy with (w := []) (R := tc_rel (F := F) e); [apply same_test_consumer|apply test_consumer_core|apply test_consumer_waiting|reflexivity|apply tc_consume_slots_zero|apply tc_rel_build, Hs].
Qed.

(** ** Towers *)
Lemma ptower_hardy : forall T F E G S sl (t : ptower T F E G) (P : a_bulk_producer S T F E) s, pt_fits sl t -> hardy_p sl P s 0 ->
  hardy_p (pt_slurps sl t) (a_pt_producer P t) (pt_new s t) 0.
Proof.
  intros T F E G S sl t. induction t; intros P s Hf H; cbn in *.
  - exact H.
  - eapply limit_producer_hardy. now apply IHt.
  - apply map_final_producer_hardy. now apply IHt.
  - eapply invariant_producer_hardy. now apply IHt.
  - destruct Hf as (Hc & Hs & Hf). eapply pscr_producer_hardy; [exact Hc|exact Hs|]. now apply IHt.
Qed.
Lemma ctower_hardy : forall T F E G B S (t : ctower F E G B) (C : a_bulk_consumer S T F E) s, hardy_c C s 0 0 -> hardy_c (a_ct_consumer C t) (ct_new s t) 0 0.
Proof.
  intros T F E G B S t. induction t; intros C s HC; cbn in *.
  - exact HC.
  - eapply limit_consumer_hardy. now apply IHt.
  - apply map_final_consumer_hardy. now apply IHt.
  - eapply invariant_consumer_hardy. now apply IHt.
Qed.

(** ** Callers that drop no future *)
Section Calm.
  Context {S T F E : Type}.

  Lemma ap_future_run : forall (P : a_bulk_producer S T F E) o s, run (ap_future P o) s = p_do (blocking_bulk_producer P) o s.
  Proof.
    intros P o s. destruct o; cbn [ap_future p_do]; rewrite run_await.
    - change (p_produce (blocking_bulk_producer P) s) with (run (ap_produce P) s). destruct (run (ap_produce P) s) as [[s' r]| |]; reflexivity.
    - change (p_slurp (blocking_bulk_producer P) s) with (run (ap_slurp P) s). destruct (run (ap_slurp P) s) as [[s' r]| |]; reflexivity.
    - change (p_expose (blocking_bulk_producer P) s) with (run (ap_expose P) s). destruct (run (ap_expose P) s) as [[s' r]| |]; reflexivity.
    - change (p_consider (blocking_bulk_producer P) n s) with (run (ap_consider P n) s). destruct (run (ap_consider P n) s) as [[s' r]| |]; reflexivity.
    - change (p_bulk_produce (blocking_bulk_producer P) buf s) with (run (ap_bulk_produce P buf) s). destruct (run (ap_bulk_produce P buf) s) as [[s' [b r]]| |]; reflexivity.
  Qed.
  Lemma ac_future_run : forall (C : a_bulk_consumer S T F E) o s, run (ac_future C o) s = c_do (blocking_bulk_consumer C) o s.
  Proof.
    intros C o s. destruct o; cbn [ac_future c_do]; try rewrite run_await.
    - change (c_consume (blocking_bulk_consumer C) x s) with (run (ac_consume C x) s). destruct (run (ac_consume C x) s) as [[s' r]| |]; reflexivity.
    - change (c_close (blocking_bulk_consumer C) f s) with (run (ac_close C f) s). destruct (run (ac_close C f) s) as [[s' r]| |]; reflexivity.
    - change (c_flush (blocking_bulk_consumer C) s) with (run (ac_flush C) s). destruct (run (ac_flush C) s) as [[s' r]| |]; reflexivity.
    - change (c_expose (blocking_bulk_consumer C) s) with (run (ac_expose C) s). destruct (run (ac_expose C) s) as [[s' r]| |]; reflexivity.
    - reflexivity.
    - change (c_consume_slots (blocking_bulk_consumer C) n s) with (run (ac_consume_slots C n) s). destruct (run (ac_consume_slots C n) s) as [[s' r]| |]; reflexivity.
    - change (c_bulk_consume (blocking_bulk_consumer C) buf s) with (run (ac_bulk_consume C buf) s). destruct (run (ac_bulk_consume C buf) s) as [[s' r]| |]; reflexivity.
  Qed.

  Lemma hardy_calm : forall M O A (may : M -> O -> bool) saw gave_up (future : O -> fut S A) call, (forall o s, run (future o) s = call o s) ->
    forall s m, hardy may saw gave_up future s m -> calm may saw call s m.
  Proof.
    intros M O A may saw gave_up future call Hrun s m H. apply calm_intro with (Inv := hardy may saw gave_up future); [|exact H]. clear s m H.
    intros s m o H Ho. destruct (@hardy_step _ _ _ _ _ _ _ _ _ _ o H Ho) as [_ Hs]. apply op_run in Hs. destruct Hs as [_ Hs]. rewrite Hrun in Hs. exact Hs.
  Qed.
End Calm.

(** ** Merge *)
Section Merge.
  Context {S1 S2 T F E : Type} (sl1 sl2 : bool) (P1 : a_buffered_producer S1 T F E) (P2 : a_buffered_producer S2 T F E).
  Notation calm1 := (calm_buffered_producer sl1 (blocking_buffered_producer P1)).
  Notation calm2 := (calm_buffered_producer sl2 (blocking_buffered_producer P2)).

  Definition ok_owned {S} (IP : S -> Prop) (o : owned S (res (T + F) E)) : Prop :=
    ok_polls (fun _ => True) (fun s' r => forall i, r = Ok (inl i) -> IP s') (o_future o) (o_producer o).
  Definition ok_merge (m : a_merge S1 S2 T F E) : Prop :=
    (a_future1 m <> None \/ a_future2 m <> None) /\ (forall o, a_future1 m = Some o -> ok_owned calm1 o) /\ (forall o, a_future2 m = Some o -> ok_owned calm2 o).
  Definition merge_stands (at_ : merge_at) (m : a_merge S1 S2 T F E) : Prop :=
    match at_ with
    | AtStart => True
    | AtFirst => a_future1 m <> None
    | AtSecond => a_future2 m <> None
    | AtSelect => a_future1 m <> None /\ a_future2 m <> None
    end.

  Lemma own_ok : forall S sl (P : a_buffered_producer S T F E) s, calm_buffered_producer sl (blocking_buffered_producer P) s ->
    ok_owned (calm_buffered_producer sl (blocking_buffered_producer P)) (own P s).
  Proof. intros S sl P s H. apply op_run. split; [auto|]. exact (calm_bp_produce H). Qed.
  Lemma poll_owned_ok : forall S (IP : S -> Prop) (o : owned S (res (T + F) E)), ok_owned IP o ->
    safely (fun r => match r with AsyncModel.Ready (p, x) => forall i, x = Ok (inl i) -> IP p | AsyncModel.Pending _ o' => ok_owned IP o' end) (poll_owned o).
  Proof.
    intros S IP [[p] s] H. unfold ok_owned in *. cbn in *. unfold poll_owned. cbn. destruct (p s) as [[s' [x|w f]]| |]; cbn in *; auto. exact (proj2 H).
  Qed.

  Definition ok_pass (x : a_merge S1 S2 T F E * merge_pass (res (T + F) E)) : Prop :=
    match snd x with
    | NextIteration => ok_merge (fst x)
    | Polled (AsyncModel.Pending _ at_) => ok_merge (fst x) /\ merge_stands at_ (fst x)
    | Polled (AsyncModel.Ready r) => forall i, r = Ok (inl i) -> ok_merge (fst x)
    end.

  Lemma ok_merge_1 : forall o f2, ok_owned calm1 o -> (forall o', f2 = Some o' -> ok_owned calm2 o') -> ok_merge (mk_a_merge (Some o) f2).
  Proof.
    intros o f2 H1 H2. unfold ok_merge. cbn. split; [left; discriminate|]. split; [|exact H2]. intros o' Eo. injection Eo as <-. exact H1.
  Qed.
  Lemma ok_merge_2 : forall o f1, ok_owned calm2 o -> (forall o', f1 = Some o' -> ok_owned calm1 o') -> ok_merge (mk_a_merge f1 (Some o)).
  Proof.
    intros o f1 H1 H2. unfold ok_merge. cbn. split; [right; discriminate|]. split; [exact H2|]. intros o' Eo. injection Eo as <-. exact H1.
  Qed.
  Lemma some_ok : forall S (IP : S -> Prop) (o : owned S (res (T + F) E)), ok_owned IP o -> forall o', Some o = Some o' -> ok_owned IP o'.
  Proof. intros S IP o H o' Eo. injection Eo as <-. exact H. Qed.

  Lemma await_first_ok : forall o m, ok_owned calm1 o -> (forall o', a_future2 m = Some o' -> ok_owned calm2 o') -> safely ok_pass (await_first P1 o m).
  Proof.
    intros o m H1 H2. unfold await_first. eapply safely_bind; [exact (@poll_owned_ok _ _ _ H1)|]. intros [[p x]|w o'] H; cbn.
    - intros i ->. apply ok_merge_1; [|exact H2]. apply own_ok. eauto.
    - split; [now apply ok_merge_1|discriminate].
  Qed.
  Lemma await_second_ok : forall o m, ok_owned calm2 o -> (forall o', a_future1 m = Some o' -> ok_owned calm1 o') -> safely ok_pass (await_second P2 o m).
  Proof.
    intros o m H1 H2. unfold await_second. eapply safely_bind; [exact (@poll_owned_ok _ _ _ H1)|]. intros [[p x]|w o'] H; cbn.
    - intros i ->. apply ok_merge_2; [|exact H2]. apply own_ok. eauto.
    - split; [now apply ok_merge_2|discriminate].
  Qed.
  Lemma select_left_ok : forall p x o1 o2, (forall i, x = Ok (inl i) -> calm1 p) -> ok_owned calm2 o2 -> ok_pass (select_left P1 p x (mk_a_merge o1 (Some o2))).
  Proof.
    intros p x o1 o2 H H2. destruct x as [[i|f]|e]; cbn; try discriminate.
    - intros j _. apply ok_merge_1; [apply own_ok; eauto|now apply some_ok].
    - apply ok_merge_2; [exact H2|discriminate].
  Qed.
  Lemma select_right_ok : forall p x o1 o2, (forall i, x = Ok (inl i) -> calm2 p) -> ok_owned calm1 o1 -> ok_pass (select_right P2 p x (mk_a_merge (Some o1) o2)).
  Proof.
    intros p x o1 o2 H H2. destruct x as [[i|f]|e]; cbn; try discriminate.
    - intros j _. apply ok_merge_2; [apply own_ok; eauto|now apply some_ok].
    - apply ok_merge_1; [exact H2|discriminate].
  Qed.
  Lemma await_select_ok : forall b o1 o2, ok_owned calm1 o1 -> ok_owned calm2 o2 -> safely ok_pass (await_select P1 P2 b o1 o2).
  Proof.
    intros b o1 o2 H1 H2. unfold await_select. destruct b.
    - eapply safely_bind; [exact (@poll_owned_ok _ _ _ H2)|]. intros [[p x]|w o'] H; [refine (select_right_ok _ _ H H1)|].
      eapply safely_bind; [exact (@poll_owned_ok _ _ _ H1)|]. intros [[p x]|w' o''] H'; [exact (select_left_ok _ _ H' H)|].
      cbn. split; [apply ok_merge_1; [exact H'|now apply some_ok]|split; discriminate].
    - eapply safely_bind; [exact (@poll_owned_ok _ _ _ H1)|]. intros [[p x]|w o'] H; [exact (select_left_ok _ _ H H2)|].
      eapply safely_bind; [exact (@poll_owned_ok _ _ _ H2)|]. intros [[p x]|w' o''] H'; [refine (select_right_ok _ _ H' H)|].
      cbn. split; [apply ok_merge_1; [exact H|now apply some_ok]|split; discriminate].
  Qed.
  Lemma merge_body_ok : forall b at_ m, ok_merge m -> merge_stands at_ m -> safely ok_pass (merge_body P1 P2 b at_ m).
  Proof.
    intros b at_ [[o1|] [o2|]] (Hn & H1 & H2) Hat; cbn [a_future1 a_future2] in *; destruct at_; cbn [merge_stands a_future1 a_future2] in Hat; cbn [merge_body a_future1 a_future2].
    all: try solve [exfalso; intuition congruence].
    all: try solve [apply await_select_ok; auto].
    all: try solve [apply await_first_ok; cbn; auto; discriminate].
    all: try solve [apply await_second_ok; cbn; auto; discriminate].
  Qed.

  Lemma merge_poll_ok : forall fuel b at_ m, ok_merge m -> merge_stands at_ m -> safely (fun x => ok_pass (fst x, Polled (snd x))) (merge_poll P1 P2 fuel b at_ m).
  Proof.
    induction fuel as [|fuel IH]; intros b at_ m Hm Hat; cbn [merge_poll]; [exact Logic.I|].
    eapply safely_bind; [exact (merge_body_ok b at_ Hm Hat)|]. intros [m' [|r]] H; cbn in H; [apply IH; [exact H|exact Logic.I]|exact H].
  Qed.

  Lemma merge_session_ok : forall fuel acts at_ m, ok_merge m -> merge_stands at_ m -> merge_session P1 P2 fuel acts at_ m <> Panic.
  Proof.
    intros fuel. induction acts as [|act acts IH]; intros at_ m Hm Hat; cbn [merge_session]; [discriminate|].
    assert (Hat' : merge_stands (if drop_first act then AtStart else at_) m) by (destruct (drop_first act); [exact Logic.I|exact Hat]).
    pose proof (merge_poll_ok fuel (order act) _ Hm Hat') as H. destruct (merge_poll P1 P2 fuel _ _ m) as [[m' [[[i|f]|e]|w a]]| |]; cbn in *; try discriminate; [| |contradiction].
    - pose proof (IH AtStart m' (H _ eq_refl) Logic.I) as H'. destruct (merge_session P1 P2 fuel acts AtStart m') as [[[? ?] ?]| |]; cbn; [discriminate|congruence|discriminate].
    - destruct H as [H1 H2]. exact (IH _ _ H1 H2).
  Qed.

  Lemma merge_hardy : forall fuel acts s1 s2, calm1 s1 -> calm2 s2 -> merge_session P1 P2 fuel acts AtStart (a_merge_new P1 P2 s1 s2) <> Panic.
  Proof.
    intros fuel acts s1 s2 H1 H2. apply merge_session_ok; [|exact Logic.I]. apply ok_merge_1; [now apply own_ok|]. apply some_ok. now apply own_ok.
  Qed.
End Merge.

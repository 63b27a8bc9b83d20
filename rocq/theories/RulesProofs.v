(** The library obeys the rules of the objects that it is given. *)
From Coq Require Import Bool List Arith Lia.
From Coq.Init Require Import Byte.
From Verif Require Import Prelude QueueModel Traits BasicModel AdaptorModel ScramblerModel CodecModel EndianModel Contracts AdaptorSpec RulesSpec.
Import ListNotations.
Set Implicit Arguments.

(** [g] does the same as [o], up to [f], and what it returns has the property [Q]. *)
Definition kept {A B} (f : A -> B) (Q : A -> Prop) (g : outcome A) (o : outcome B) : Prop :=
  omap f g = o /\ forall a, g = Ret a -> Q a.

Lemma kept_ret : forall A B (f : A -> B) (Q : A -> Prop) a b, f a = b -> Q a -> kept f Q (Ret a) (Ret b).
Proof. intros A B f Q a b <- H. split; [reflexivity|]. now intros ? [= <-]. Qed.

Lemma kept_panic : forall A B (f : A -> B) Q, kept f Q Panic Panic.
Proof. intros. split; [reflexivity|discriminate]. Qed.

Lemma kept_no_fuel : forall A B (f : A -> B) Q, kept f Q NoFuel NoFuel.
Proof. intros. split; [reflexivity|discriminate]. Qed.

Lemma kept_bind : forall A B A' B' (f : A -> B) (Q : A -> Prop) (f' : A' -> B') (Q' : A' -> Prop) g o k k',
  kept f Q g o -> (forall a, Q a -> kept f' Q' (k a) (k' (f a))) -> kept f' Q' (bind g k) (bind o k').
Proof.
  intros A B A' B' f Q f' Q' g o k k' [<- HQ] H. destruct g as [a| |]; cbn; [|apply kept_panic|apply kept_no_fuel].
  apply H. now apply HQ.
Qed.

(** Steps that have nothing to do with the object. *)
Lemma kept_same : forall A A' B' (f' : A' -> B') (Q' : A' -> Prop) (o : outcome A) k k',
  (forall a, o = Ret a -> kept f' Q' (k a) (k' a)) -> kept f' Q' (bind o k) (bind o k').
Proof. intros A A' B' f' Q' [a| |] k k' H; cbn; [now apply H|apply kept_panic|apply kept_no_fuel]. Qed.

Lemma kept_weaken : forall A B (f : A -> B) (Q Q' : A -> Prop) g o, (forall a, Q a -> Q' a) -> kept f Q g o -> kept f Q' g o.
Proof. intros A B f Q Q' g o H [E HQ]. split; auto. Qed.

(** Changing the observation. *)
Lemma kept_then : forall A B A' B' (f : A -> B) (Q : A -> Prop) (f' : A' -> B') (Q' : A' -> Prop) g o (k : A -> A') (k' : B -> B'),
  kept f Q g o -> (forall a, Q a -> f' (k a) = k' (f a) /\ Q' (k a)) ->
  kept f' Q' (let* a := g in Ret (k a)) (let* b := o in Ret (k' b)).
Proof. intros. eapply kept_bind; [eassumption|]. intros a Ha. apply kept_ret; now apply H0. Qed.

Section Calls.
  Variable bad : forall X : Type, outcome X.

  Lemma guarded_kept : forall S M X (may : bool) (saw : X -> M) (call : outcome (S * X)),
    may = true -> kept unmon (fun x => snd (fst x) = saw (snd x)) (guarded bad may saw call) call.
  Proof.
    intros S M X may saw call ->. unfold guarded. destruct call as [[s x]| |]; cbn.
    - now apply kept_ret.
    - apply kept_panic.
    - apply kept_no_fuel.
  Qed.

  Section Producer.
    Context {S T F E : Type} (P : bulk_producer S T F E).

    Lemma p_may_any : forall m (o : pop T), pm_over m = false -> match o with PConsider n => n <= pm_shown m | _ => True end -> p_may m o = true.
    Proof. intros m o H Ho. unfold p_may. rewrite H. destruct o; cbn; try reflexivity. now apply Nat.leb_le. Qed.

    Lemma guard_produce : forall s m, pm_over m = false ->
      kept unmon (fun x => snd (fst x) = p_saw m PProduce (PAItem (snd x))) (p_produce (guard_producer bad P) (s, m)) (p_produce P s).
    Proof. intros s m H. apply (guarded_kept (fun r => p_saw m PProduce (PAItem r)) (p_produce P s)), p_may_any; cbn; auto. Qed.

    Lemma guard_slurp : forall s m, pm_over m = false ->
      kept unmon (fun x => snd (fst x) = p_saw m PSlurp (@PAUnit T F E (snd x))) (p_slurp (guard_producer bad P) (s, m)) (p_slurp P s).
    Proof. intros s m H. apply (guarded_kept (fun r => p_saw m PSlurp (@PAUnit T F E r)) (p_slurp P s)), p_may_any; cbn; auto. Qed.

    Lemma guard_expose : forall s m, pm_over m = false ->
      kept unmon (fun x => snd (fst x) = p_saw m PExpose (PASlice (snd x))) (p_expose (guard_producer bad P) (s, m)) (p_expose P s).
    Proof. intros s m H. apply (guarded_kept (fun r => p_saw m PExpose (PASlice r)) (p_expose P s)), p_may_any; cbn; auto. Qed.

    Lemma guard_consider : forall n s m, pm_over m = false -> n <= pm_shown m ->
      kept unmon (fun x => snd (fst x) = p_saw m (PConsider n) (@PAUnit T F E (snd x))) (p_consider (guard_producer bad P) n (s, m)) (p_consider P n s).
    Proof. intros n s m H Hn. apply (guarded_kept (fun r => p_saw m (PConsider n) (@PAUnit T F E r)) (p_consider P n s)), p_may_any; cbn; auto. Qed.

    Lemma guard_bulk_produce : forall buf s m, pm_over m = false ->
      kept unmon (fun x => snd (fst x) = p_saw m (PBulkProduce buf) (PABuf (fst (snd x)) (snd (snd x))))
        (p_bulk_produce (guard_producer bad P) buf (s, m)) (p_bulk_produce P buf s).
    Proof.
      intros buf s m H.
      apply (guarded_kept (fun br => p_saw m (PBulkProduce buf) (PABuf (fst br) (snd br))) (p_bulk_produce P buf s)), p_may_any; cbn; auto.
    Qed.
  End Producer.

  Section Consumer.
    Context {S T F E : Type} (C : bulk_consumer S T F E).

    Lemma c_may_any : forall m (o : cop T F), cm_over m = false -> match o with CConsumeSlots n => n <= cm_written m | _ => True end -> c_may m o = true.
    Proof. intros m o H Ho. unfold c_may. rewrite H. destruct o; cbn; try reflexivity. now apply Nat.leb_le. Qed.

    Lemma guard_consume : forall x s m, cm_over m = false ->
      kept unmon (fun y => snd (fst y) = c_saw m (@CConsume T F x) (CAUnit (snd y))) (c_consume (guard_consumer bad C) x (s, m)) (c_consume C x s).
    Proof. intros x s m H. apply (guarded_kept (fun r => c_saw m (@CConsume T F x) (CAUnit r)) (c_consume C x s)), c_may_any; cbn; auto. Qed.

    Lemma guard_close : forall f s m, cm_over m = false ->
      kept unmon (fun y => snd (fst y) = c_saw m (@CClose T F f) (CAUnit (snd y))) (c_close (guard_consumer bad C) f (s, m)) (c_close C f s).
    Proof. intros f s m H. apply (guarded_kept (fun r => c_saw m (@CClose T F f) (CAUnit r)) (c_close C f s)), c_may_any; cbn; auto. Qed.

    Lemma guard_flush : forall s m, cm_over m = false ->
      kept unmon (fun y => snd (fst y) = c_saw m (@CFlush T F) (CAUnit (snd y))) (c_flush (guard_consumer bad C) (s, m)) (c_flush C s).
    Proof. intros s m H. apply (guarded_kept (fun r => c_saw m (@CFlush T F) (CAUnit r)) (c_flush C s)), c_may_any; cbn; auto. Qed.

    Lemma guard_expose_slots : forall s m, cm_over m = false ->
      kept unmon (fun y => snd (fst y) = c_saw m (@CExpose T F) (CASlots (snd y))) (c_expose (guard_consumer bad C) (s, m)) (c_expose C s).
    Proof. intros s m H. apply (guarded_kept (fun r => c_saw m (@CExpose T F) (CASlots r)) (c_expose C s)), c_may_any; cbn; auto. Qed.

    Lemma guard_consume_slots : forall n s m, cm_over m = false -> n <= cm_written m ->
      kept unmon (fun y => snd (fst y) = c_saw m (@CConsumeSlots T F n) (CAUnit (snd y)))
        (c_consume_slots (guard_consumer bad C) n (s, m)) (c_consume_slots C n s).
    Proof. intros n s m H Hn. apply (guarded_kept (fun r => c_saw m (@CConsumeSlots T F n) (CAUnit r)) (c_consume_slots C n s)), c_may_any; cbn; auto. Qed.

    Lemma guard_bulk_consume : forall buf s m, cm_over m = false ->
      kept unmon (fun y => snd (fst y) = c_saw m (@CBulkConsume T F buf) (CANat (snd y)))
        (c_bulk_consume (guard_consumer bad C) buf (s, m)) (c_bulk_consume C buf s).
    Proof. intros buf s m H. apply (guarded_kept (fun r => c_saw m (@CBulkConsume T F buf) (CANat r)) (c_bulk_consume C buf s)), c_may_any; cbn; auto. Qed.
  End Consumer.

  (** ** Pipes *)
  Section Pipes.
    Context {SP SC T F PE CE : Type} (P : bulk_producer SP T F PE) (C : bulk_consumer SC T F CE).

    Lemma pipe_kept : forall fuel sp sc m n, pm_over m = false -> cm_over n = false ->
      kept unmon2 (pipe_done (fun _ => true))
        (pipe fuel (guard_producer bad P) (guard_consumer bad C) (sp, m) (sc, n)) (pipe fuel P C sp sc).
    Proof.
      induction fuel as [|fuel IH]; intros sp sc m n Hm Hn; [apply kept_no_fuel|]. cbn [pipe].
      eapply kept_bind; [apply guard_produce, Hm|]. intros [[sp1 m1] [[x|f]|e]]; unfold unmon; cbn [fst snd]; intros ->.
      - eapply kept_bind; [apply guard_consume, Hn|]. intros [[sc1 n1] [[]|e]]; unfold unmon; cbn [fst snd]; intros ->.
        + apply IH; reflexivity.
        + apply kept_ret; cbn; auto.
      - eapply kept_bind; [apply guard_close, Hn|]. intros [[sc1 n1] [[]|e]]; unfold unmon; cbn [fst snd]; intros ->; apply kept_ret; cbn; auto.
      - apply kept_ret; cbn; auto.
    Qed.

    Lemma pipe_at_most_kept : forall count todo piped sp sc m n, pm_over m = false -> cm_over n = false -> piped + todo = count ->
      kept unmon2 (pipe_done (fun k => k <? count))
        (pipe_at_most_loop todo (guard_producer bad P) (guard_consumer bad C) piped (sp, m) (sc, n)) (pipe_at_most_loop todo P C piped sp sc).
    Proof.
      intros count. induction todo as [|todo IH]; intros piped sp sc m n Hm Hn Hk.
      - apply kept_ret; [reflexivity|]. cbn. rewrite Hm, Hn. assert (piped <? count = false) as -> by (apply Nat.ltb_ge; lia). auto.
      - cbn [pipe_at_most_loop].
        eapply kept_bind; [apply guard_produce, Hm|]. intros [[sp1 m1] [[x|f]|e]]; unfold unmon; cbn [fst snd]; intros ->.
        + eapply kept_bind; [apply guard_consume, Hn|]. intros [[sc1 n1] [[]|e]]; unfold unmon; cbn [fst snd]; intros ->.
          * apply IH; [reflexivity..|lia].
          * apply kept_ret; cbn; auto.
        + eapply kept_bind; [apply guard_close, Hn|]. intros [[sc1 n1] [[]|e]]; unfold unmon; cbn [fst snd]; intros ->; apply kept_ret; cbn; auto.
          assert (piped <? count = true) as -> by (apply Nat.ltb_lt; lia). auto.
        + apply kept_ret; cbn; auto.
    Qed.

    (** The consumer does not claim to have consumed more than it was given. *)
    Variable honest : forall buf s s' n, c_bulk_consume C buf s = Ret (s', Ok n) -> n <= length buf.

    Lemma kept_eq : forall A B (f : A -> B) Q (g : outcome A) o, kept f Q g o -> kept f (fun a => Q a /\ o = Ret (f a)) g o.
    Proof. intros A B f Q g o [<- H]. split; [reflexivity|]. intros a ->. split; [now apply H|reflexivity]. Qed.

    Lemma bulk_pipe_kept : forall fuel sp sc m n, pm_over m = false -> cm_over n = false ->
      kept unmon2 (pipe_done (fun _ => true))
        (bulk_pipe fuel (guard_producer bad P) (guard_consumer bad C) (sp, m) (sc, n)) (bulk_pipe fuel P C sp sc).
    Proof.
      induction fuel as [|fuel IH]; intros sp sc m n Hm Hn; [apply kept_no_fuel|]. cbn [bulk_pipe].
      eapply kept_bind; [apply guard_expose, Hm|]. intros [[sp1 m1] [[xs|f]|e]]; unfold unmon; cbn [fst snd]; intros ->.
      - eapply kept_bind; [apply kept_eq, guard_bulk_consume, Hn|]. intros [[sc1 n1] [k|e]]; unfold unmon; cbn [fst snd]; intros [-> Hk].
        + eapply kept_bind; [apply guard_consider; [reflexivity|cbn; eapply honest, Hk]|].
          intros [[sp2 m2] [[]|e]]; unfold unmon; cbn [fst snd]; intros ->; [apply IH; reflexivity|apply kept_ret; cbn; auto].
        + apply kept_ret; cbn; auto.
      - eapply kept_bind; [apply guard_close, Hn|]. intros [[sc1 n1] [[]|e]]; unfold unmon; cbn [fst snd]; intros ->; apply kept_ret; cbn; auto.
      - apply kept_ret; cbn; auto.
    Qed.

    Lemma bulk_pipe_at_most_kept : forall fuel count piped sp sc m n, pm_over m = false -> cm_over n = false ->
      kept unmon2 (pipe_done (fun k => k <? count))
        (bulk_pipe_at_most_loop fuel (guard_producer bad P) (guard_consumer bad C) count piped (sp, m) (sc, n))
        (bulk_pipe_at_most_loop fuel P C count piped sp sc).
    Proof.
      induction fuel as [|fuel IH]; intros count piped sp sc m n Hm Hn; [apply kept_no_fuel|]. cbn [bulk_pipe_at_most_loop].
      destruct (piped <? count) eqn:Hp; [|apply kept_ret; [reflexivity|cbn; rewrite Hp; auto]].
      eapply kept_bind; [apply guard_expose, Hm|]. intros [[sp1 m1] [[xs|f]|e]]; unfold unmon; cbn [fst snd]; intros ->.
      - apply kept_same. intros room _. apply kept_same. intros ys Hys.
        eapply kept_bind; [apply kept_eq, guard_bulk_consume, Hn|]. intros [[sc1 n1] [k|e]]; unfold unmon; cbn [fst snd]; intros [-> Hk].
        + eapply kept_bind; [apply guard_consider; [reflexivity|]|].
          * cbn. apply honest in Hk. unfold slice_to in Hys. match type of Hys with (if ?b then _ else _) = _ => destruct b; [discriminate|] end. injection Hys as <-.
            rewrite firstn_length in Hk. lia.
          * intros [[sp2 m2] [[]|e]]; unfold unmon; cbn [fst snd]; intros ->; [apply IH; reflexivity|apply kept_ret; cbn; auto].
        + apply kept_ret; cbn; auto.
      - eapply kept_bind; [apply guard_close, Hn|]. intros [[sc1 n1] [[]|e]]; unfold unmon; cbn [fst snd]; intros ->; apply kept_ret; cbn; auto.
      - apply kept_ret; cbn; auto.
    Qed.
  End Pipes.
End Calls.

(** ** Slices and default methods *)
Section Slices.
  Variable bad : forall X : Type, outcome X.
  Context {S T F E : Type}.

  Definition c_over_iff {X E'} (x : S * cmon * res X E') : Prop := cm_over (snd (fst x)) = negb (is_ok (snd x)).
  Definition p_over_iff {X Y E'} (x : S * pmon * (X * res Y E')) : Prop := pm_over (snd (fst x)) = negb (is_ok (snd (snd x))).

  Lemma consume_full_slice_kept : forall (C : bulk_consumer S T F E) buf i s m, cm_over m = false ->
    kept unmon c_over_iff (consume_full_slice_from (guard_consumer bad C) i buf (s, m)) (consume_full_slice_from C i buf s).
  Proof.
    intros C buf. induction buf as [|x buf IH]; intros i s m Hm; [now apply kept_ret|]. cbn [consume_full_slice_from].
    eapply kept_bind; [apply guard_consume, Hm|]. intros [[s1 m1] [[]|e]]; unfold unmon; cbn [fst snd]; intros ->.
    - apply IH. reflexivity.
    - apply kept_ret; reflexivity.
  Qed.

  Lemma bulk_consume_full_slice_kept : forall (C : bulk_consumer S T F E) buf fuel i s m, cm_over m = false ->
    kept unmon c_over_iff (bulk_consume_full_slice_loop fuel (guard_consumer bad C) i buf (s, m)) (bulk_consume_full_slice_loop fuel C i buf s).
  Proof.
    intros C buf. induction fuel as [|fuel IH]; intros i s m Hm; [apply kept_no_fuel|]. cbn [bulk_consume_full_slice_loop].
    destruct (i <? length buf); [|now apply kept_ret].
    apply kept_same. intros rest _.
    eapply kept_bind; [apply guard_bulk_consume, Hm|]. intros [[s1 m1] [k|e]]; unfold unmon; cbn [fst snd]; intros ->.
    - apply IH. reflexivity.
    - apply kept_ret; reflexivity.
  Qed.

  Lemma produce_item_kept : forall (P : bulk_producer S T F E) s m, pm_over m = false ->
    kept unmon (fun x => pm_over (snd (fst x)) = negb (is_ok (snd x))) (produce_item (guard_producer bad P) (s, m)) (produce_item P s).
  Proof.
    intros P s m Hm. unfold produce_item.
    eapply kept_bind; [apply guard_produce, Hm|]. intros [[s1 m1] [[x|f]|e]]; unfold unmon; cbn [fst snd]; intros ->; apply kept_ret; reflexivity.
  Qed.

  Lemma overwrite_full_slice_kept : forall (P : bulk_producer S T F E) todo i buf s m, pm_over m = false ->
    kept unmon p_over_iff (overwrite_full_slice_from (guard_producer bad P) todo i buf (s, m)) (overwrite_full_slice_from P todo i buf s).
  Proof.
    intros P. induction todo as [|todo IH]; intros i buf s m Hm; [now apply kept_ret|]. cbn [overwrite_full_slice_from].
    eapply kept_bind; [apply guard_produce, Hm|]. intros [[s1 m1] [[x|f]|e]]; unfold unmon; cbn [fst snd]; intros ->; [|apply kept_ret; reflexivity..].
    apply kept_same. intros buf1 _. apply IH. reflexivity.
  Qed.

  Lemma bulk_overwrite_full_slice_kept : forall (P : bulk_producer S T F E) fuel i buf s m, pm_over m = false ->
    kept unmon p_over_iff (bulk_overwrite_full_slice_loop fuel (guard_producer bad P) i buf (s, m)) (bulk_overwrite_full_slice_loop fuel P i buf s).
  Proof.
    intros P. induction fuel as [|fuel IH]; intros i buf s m Hm; [apply kept_no_fuel|]. cbn [bulk_overwrite_full_slice_loop].
    destruct (i <? length buf); [|now apply kept_ret].
    apply kept_same. intros rest _.
    eapply kept_bind; [apply guard_bulk_produce, Hm|]. intros [[s1 m1] [b [[k|f]|e]]]; unfold unmon; cbn [fst snd]; intros ->; [|apply kept_ret; reflexivity..].
    apply IH. reflexivity.
  Qed.
End Slices.

(** ** Objects on top of others: one call at a time *)
Section Obeying.
  Context {S1 S2 M O A : Type} (may : M -> O -> bool) (saw : M -> O -> A -> M).
  Variables (do1 : O -> S1 -> outcome (S1 * A)) (do2 : O -> S2 -> outcome (S2 * A)) (forget : S1 -> S2) (Inv : S1 -> M -> Prop) (good : O -> Prop).

  Definition forgot {X} (x : S1 * X) : S2 * X := (forget (fst x), snd x).

  Variable step : forall o s m, Inv s m -> good o -> may m o = true ->
    kept forgot (fun x => Inv (fst x) (saw m o (snd x))) (do1 o s) (do2 o (forget s)).

  Lemma obeying_kept : forall ops s m, Inv s m -> Forall good ops ->
    kept (seen forget) (fun x => Inv (fst (fst x)) (snd (fst x))) (obeying may saw do1 ops m s) (obeying may saw do2 ops m (forget s)).
  Proof.
    induction ops as [|o ops IH]; intros s m HI HG; cbn [obeying]; [now apply kept_ret|].
    destruct (may m o) eqn:Hm; [|now apply kept_ret]. inversion_clear HG as [|? ? Ho HG'].
    eapply kept_bind; [apply step; eauto|]. intros [s1 a] H1. cbn [fst snd forgot] in *.
    eapply kept_bind; [apply IH; eauto|]. intros [[s2 m2] rs] H2. cbn in *. apply kept_ret; auto.
  Qed.
End Obeying.
Arguments forgot {S1 S2} forget {X} x.

(** ** Bulk producers with the default [bulk_produce] *)
Section ProducerOf.
  Context {S1 S2 T F E : Type}.
  Variables (produce1 : S1 -> outcome (S1 * res (T + F) E)) (slurp1 : S1 -> outcome (S1 * res unit E))
    (expose1 : S1 -> outcome (S1 * res (list T + F) E)) (consider1 : nat -> S1 -> outcome (S1 * res unit E)).
  Variables (produce2 : S2 -> outcome (S2 * res (T + F) E)) (slurp2 : S2 -> outcome (S2 * res unit E))
    (expose2 : S2 -> outcome (S2 * res (list T + F) E)) (consider2 : nat -> S2 -> outcome (S2 * res unit E)).
  Variables (forget : S1 -> S2) (Inv : S1 -> pmon -> Prop) (slurping : Prop).

  Hypothesis Hover : forall s k, Inv s (mk_pmon true k).
  Hypothesis Hzero : forall s m, Inv s m -> Inv s (mk_pmon (pm_over m) 0).
  Hypothesis Hproduce : forall s m, Inv s m -> pm_over m = false ->
    kept (forgot forget) (fun x => Inv (fst x) (p_saw m PProduce (PAItem (snd x)))) (produce1 s) (produce2 (forget s)).
  Hypothesis Hslurp : slurping -> forall s m, Inv s m -> pm_over m = false ->
    kept (forgot forget) (fun x => Inv (fst x) (p_saw m PSlurp (@PAUnit T F E (snd x)))) (slurp1 s) (slurp2 (forget s)).
  Hypothesis Hexpose : forall s m, Inv s m -> pm_over m = false ->
    kept (forgot forget) (fun x => Inv (fst x) (p_saw m PExpose (PASlice (snd x)))) (expose1 s) (expose2 (forget s)).
  Hypothesis Hconsider : forall n s m, Inv s m -> pm_over m = false -> n <= pm_shown m ->
    kept (forgot forget) (fun x => Inv (fst x) (p_saw m (PConsider n) (@PAUnit T F E (snd x)))) (consider1 n s) (consider2 n (forget s)).

  Lemma producer_of_step : forall o s m, Inv s m -> (o = PSlurp -> slurping) -> p_may m o = true ->
    kept (forgot forget) (fun x => Inv (fst x) (p_saw m o (snd x)))
      (p_do (bulk_producer_of produce1 slurp1 expose1 consider1) o s) (p_do (bulk_producer_of produce2 slurp2 expose2 consider2) o (forget s)).
  Proof.
    intros o s m HI Hg Hmay. unfold p_may in Hmay. apply andb_prop in Hmay as [Ho Hn]. apply negb_true_iff in Ho.
    destruct o as [| | |n|buf]; cbn [p_do bulk_producer_of p_produce p_producer p_buffered p_slurp p_expose p_consider p_bulk_produce].
    - eapply kept_bind; [apply Hproduce; eauto|]. intros [s1 r] H. now apply kept_ret.
    - eapply kept_bind; [apply Hslurp; eauto|]. intros [s1 r] H. now apply kept_ret.
    - eapply kept_bind; [apply Hexpose; eauto|]. intros [s1 r] H. now apply kept_ret.
    - apply Nat.leb_le in Hn. eapply kept_bind; [apply Hconsider; eauto|]. intros [s1 r] H. now apply kept_ret.
    - eapply kept_bind with (f := forgot forget) (Q := fun x => Inv (fst x) (p_saw m (PBulkProduce buf) (PABuf (fst (snd x)) (snd (snd x))))).
      + unfold default_bulk_produce. eapply kept_bind; [apply Hexpose; eauto|].
        intros [s1 [[xs|f]|e]] H; cbn [fst snd forgot] in *; [|apply kept_ret; [reflexivity|apply Hover]..].
        eapply kept_bind; [apply Hconsider; [exact H|reflexivity|cbn; lia]|].
        intros [s2 [[]|e]] H2; cbn [fst snd forgot] in *; apply kept_ret; try reflexivity; [|apply Hover].
        apply Hzero in H2. exact H2.
      + intros [s1 [b r]] H. apply kept_ret; [reflexivity|exact H].
  Qed.

  Lemma producer_of_kept : forall ops s m, Inv s m -> (In PSlurp ops -> slurping) ->
    kept (seen forget) (fun x => Inv (fst (fst x)) (snd (fst x)))
      (p_obeying (bulk_producer_of produce1 slurp1 expose1 consider1) ops m s)
      (p_obeying (bulk_producer_of produce2 slurp2 expose2 consider2) ops m (forget s)).
  Proof.
    intros ops s m HI Hg. apply obeying_kept with (good := fun o => o = PSlurp -> slurping); auto using producer_of_step.
    apply Forall_forall. intros o Ho ->. now apply Hg.
  Qed.
End ProducerOf.

(** ** Bulk consumers with the default [bulk_consume] *)
Section ConsumerOf.
  Context {S1 S2 T F E : Type}.
  Variables (consume1 : T -> S1 -> outcome (S1 * res unit E)) (close1 : F -> S1 -> outcome (S1 * res unit E)) (flush1 : S1 -> outcome (S1 * res unit E))
    (expose1 : S1 -> outcome (S1 * res nat E)) (write1 : list T -> S1 -> S1) (slots1 : nat -> S1 -> outcome (S1 * res unit E)).
  Variables (consume2 : T -> S2 -> outcome (S2 * res unit E)) (close2 : F -> S2 -> outcome (S2 * res unit E)) (flush2 : S2 -> outcome (S2 * res unit E))
    (expose2 : S2 -> outcome (S2 * res nat E)) (write2 : list T -> S2 -> S2) (slots2 : nat -> S2 -> outcome (S2 * res unit E)).
  Variables (forget : S1 -> S2) (Inv : S1 -> cmon -> Prop).

  Hypothesis Hover : forall s k w, Inv s (mk_cmon true k w).
  Hypothesis Hzero : forall s m, Inv s m -> Inv s (mk_cmon (cm_over m) 0 0).
  Hypothesis Hconsume : forall x s m, Inv s m -> cm_over m = false ->
    kept (forgot forget) (fun y => Inv (fst y) (c_saw m (@CConsume T F x) (CAUnit (snd y)))) (consume1 x s) (consume2 x (forget s)).
  Hypothesis Hclose : forall f s m, Inv s m -> cm_over m = false ->
    kept (forgot forget) (fun y => Inv (fst y) (c_saw m (@CClose T F f) (CAUnit (snd y)))) (close1 f s) (close2 f (forget s)).
  Hypothesis Hflush : forall s m, Inv s m -> cm_over m = false ->
    kept (forgot forget) (fun y => Inv (fst y) (c_saw m (@CFlush T F) (CAUnit (snd y)))) (flush1 s) (flush2 (forget s)).
  Hypothesis Hexpose : forall s m, Inv s m -> cm_over m = false ->
    kept (forgot forget) (fun y => Inv (fst y) (c_saw m (@CExpose T F) (CASlots (snd y)))) (expose1 s) (expose2 (forget s)).
  Hypothesis Hwrite : forall ys s m, Inv s m -> cm_over m = false ->
    forget (write1 ys s) = write2 ys (forget s) /\ Inv (write1 ys s) (c_saw m (@CWrite T F ys) (@CANone E)).
  Hypothesis Hslots : forall n s m, Inv s m -> cm_over m = false -> n <= cm_written m ->
    kept (forgot forget) (fun y => Inv (fst y) (c_saw m (@CConsumeSlots T F n) (CAUnit (snd y)))) (slots1 n s) (slots2 n (forget s)).

  Lemma consumer_of_step : forall o s m, Inv s m -> True -> c_may m o = true ->
    kept (forgot forget) (fun x => Inv (fst x) (c_saw m o (snd x)))
      (c_do (bulk_consumer_of consume1 close1 flush1 expose1 write1 slots1) o s)
      (c_do (bulk_consumer_of consume2 close2 flush2 expose2 write2 slots2) o (forget s)).
  Proof.
    intros o s m HI _ Hmay. unfold c_may in Hmay. apply andb_prop in Hmay as [Ho Hn]. apply negb_true_iff in Ho.
    destruct o as [x|f| | |ys|n|buf];
      cbn [c_do bulk_consumer_of c_consume c_close c_consumer c_buffered c_flush c_expose c_write c_consume_slots c_bulk_consume].
    - eapply kept_bind; [apply Hconsume; eauto|]. intros [s1 r] H. now apply kept_ret.
    - eapply kept_bind; [apply Hclose; eauto|]. intros [s1 r] H. now apply kept_ret.
    - eapply kept_bind; [apply Hflush; eauto|]. intros [s1 r] H. now apply kept_ret.
    - eapply kept_bind; [apply Hexpose; eauto|]. intros [s1 r] H. now apply kept_ret.
    - destruct (Hwrite ys HI Ho) as [E1 E2]. apply kept_ret; [|exact E2]. unfold forgot. cbn. now rewrite E1.
    - apply Nat.leb_le in Hn. eapply kept_bind; [apply Hslots; eauto|]. intros [s1 r] H. now apply kept_ret.
    - eapply kept_bind with (f := forgot forget) (Q := fun x => Inv (fst x) (c_saw m (@CBulkConsume T F buf) (CANat (snd x)))).
      + unfold default_bulk_consume. eapply kept_bind; [apply Hexpose; eauto|].
        intros [s1 [k|e]] H; cbn [fst snd forgot] in *; [|apply kept_ret; [reflexivity|apply Hover]].
        destruct (Hwrite (firstn (Nat.min k (length buf)) buf) H eq_refl) as [E1 E2]. rewrite <- E1.
        eapply kept_bind; [apply Hslots; [exact E2|reflexivity|]|].
        * cbn -[Nat.min Nat.max]. rewrite firstn_length. lia.
        * intros [s2 [[]|e]] H2; cbn [fst snd forgot] in *; apply kept_ret; try reflexivity; [|apply Hover].
          apply Hzero in H2. exact H2.
      + intros [s1 r] H. apply kept_ret; [reflexivity|exact H].
  Qed.

  Lemma consumer_of_kept : forall ops s m, Inv s m ->
    kept (seen forget) (fun x => Inv (fst (fst x)) (snd (fst x)))
      (c_obeying (bulk_consumer_of consume1 close1 flush1 expose1 write1 slots1) ops m s)
      (c_obeying (bulk_consumer_of consume2 close2 flush2 expose2 write2 slots2) ops m (forget s)).
  Proof.
    intros ops s m HI. apply obeying_kept with (good := fun _ => True); auto using consumer_of_step.
    apply Forall_forall. auto.
  Qed.
End ConsumerOf.

(** ** Default methods on top of the methods of the same object *)
Section Defaults.
  Variable bad : forall X : Type, outcome X.
  Context {S T F E : Type}.

  Lemma default_bulk_produce_kept : forall (P : bulk_producer S T F E) buf s m, pm_over m = false ->
    kept unmon (fun x => pm_over (snd (fst x)) = p_ends (PABuf (fst (snd x)) (snd (snd x))))
      (default_bulk_produce (p_expose (guard_producer bad P)) (p_consider (guard_producer bad P)) buf (s, m))
      (default_bulk_produce (p_expose P) (p_consider P) buf s).
  Proof.
    intros P buf s m Hm. unfold default_bulk_produce. eapply kept_bind; [apply guard_expose, Hm|].
    intros [[s1 m1] [[xs|f]|e]]; unfold unmon; cbn [fst snd]; intros ->; [|now apply kept_ret..].
    eapply kept_bind; [apply guard_consider; [reflexivity|cbn; lia]|]. intros [[s2 m2] [[]|e]]; unfold unmon; cbn [fst snd]; intros ->; now apply kept_ret.
  Qed.

  Lemma default_bulk_consume_kept : forall (C : bulk_consumer S T F E) buf s m, cm_over m = false ->
    kept unmon (fun x => cm_over (snd (fst x)) = negb (is_ok (snd x)))
      (default_bulk_consume (c_expose (guard_consumer bad C)) (c_write (guard_consumer bad C)) (c_consume_slots (guard_consumer bad C)) buf (s, m))
      (default_bulk_consume (c_expose C) (c_write C) (c_consume_slots C) buf s).
  Proof.
    intros C buf s m Hm. unfold default_bulk_consume. eapply kept_bind; [apply guard_expose_slots, Hm|].
    intros [[s1 m1] [k|e]]; unfold unmon; cbn [fst snd]; intros ->; [|now apply kept_ret].
    cbn [guard_consumer c_write fst snd].
    eapply kept_bind; [apply guard_consume_slots; [reflexivity|cbn -[Nat.min Nat.max]; rewrite firstn_length; lia]|].
    intros [[s2 m2] [[]|e]]; unfold unmon; cbn [fst snd]; intros ->; now apply kept_ret.
  Qed.

  Lemma default_honest : forall expose write slots (buf : list T) (s s' : S) n,
    @default_bulk_consume S T E expose write slots buf s = Ret (s', Ok n) -> n <= length buf.
  Proof.
    intros expose write slots buf s s' n. unfold default_bulk_consume. destruct (expose s) as [[s1 [k|e]]| |]; cbn [bind]; try discriminate.
    destruct (slots _ _) as [[s2 [[]|e]]| |]; cbn [bind]; try discriminate. intros [= <- <-]. lia.
  Qed.
End Defaults.

(** ** What the guards let through *)
Section Faithful.
  Context {S T F E : Type}.
  Notation stop := (fun X : Type => @Panic X).

  Lemma guard_p_do : forall (P : bulk_producer S T F E) o s m x,
    p_do (guard_producer stop P) o (s, m) = Ret x <->
    p_may m o = true /\ exists s' r, p_do P o s = Ret (s', r) /\ x = (s', p_saw m o r, r).
  Proof.
    intros P o s m [[s2 m2] r2]. destruct o as [| | |n|buf]; cbn [p_do guard_producer p_produce p_producer p_buffered p_slurp p_expose p_consider p_bulk_produce fst snd];
      unfold guarded; destruct (p_may m _); cbn [bind]; try (split; [discriminate|intros [? _]; discriminate]);
      match goal with |- context [bind (bind ?c _) _] => destruct c as [[s1 r1]| |]; cbn [bind] end;
      try (split; [discriminate|intros (_ & ? & ? & ? & _); discriminate]);
      try destruct r1 as [b1 r1]; cbn [fst snd];
      (split; [intros [= <- <- <-]; split; [reflexivity|]; eexists _, _; split; reflexivity|intros (_ & s3 & r3 & [= <- <-] & ->); reflexivity]).
  Qed.

  Lemma guard_c_do : forall (C : bulk_consumer S T F E) o s m x,
    c_do (guard_consumer stop C) o (s, m) = Ret x ->
    match o with CWrite _ => True | _ => c_may m o = true end /\ exists s' r, c_do C o s = Ret (s', r) /\ x = (s', c_saw m o r, r).
  Proof.
    intros C o s m [[s2 m2] r2].
    destruct o as [y|f| | |ys|n|buf]; cbn [c_do guard_consumer c_consume c_consumer c_buffered c_close c_flush c_expose c_write c_consume_slots c_bulk_consume fst snd].
    5: { intros [= <- <- <-]. split; [exact Logic.I|]. eexists _, _. split; reflexivity. }
    all: unfold guarded; destruct (c_may m _); cbn [bind]; try discriminate.
    all: match goal with |- context [bind (bind ?c _) _] => destruct c as [[s1 r1]| |]; cbn [bind] end; try discriminate.
    all: intros [= <- <- <-]; split; [reflexivity|]; eexists _, _; split; reflexivity.
  Qed.

  Lemma guard_p_trace : forall (P : bulk_producer S T F E) h s s' k,
    (exists m, p_trace (guard_producer stop P) (s, mk_pmon false k) h (s', m)) <-> p_trace P s h s' /\ p_rules k h.
  Proof.
    intros P. assert (Hover : forall h s k x, p_trace (guard_producer stop P) (s, mk_pmon true k) h x -> h = [] /\ x = (s, mk_pmon true k)).
    { intros h s k x H. inversion H as [|? o ? r ? ? H1 H2]; subst; [now split|]. apply guard_p_do in H1 as [H1 _]. discriminate. }
    induction h as [|[o r] h IH]; intros s s' k.
    - split.
      + intros [m H]. inversion H; subst. split; [constructor|exact Logic.I].
      + intros [H _]. inversion H; subst. eexists. constructor.
    - split.
      + intros [m H]. inversion H as [|? ? s1 ? ? ? H1 H2]; subst. apply guard_p_do in H1 as (Hm & s2 & r2 & H3 & [= -> <-]). unfold p_may in Hm. cbn [pm_over pm_shown negb andb] in Hm.
        cbn [p_rules]. unfold p_saw in H2. cbn [pm_shown] in H2. destruct (p_ends r) eqn:He.
        * apply Hover in H2 as [-> [= -> _]]. split; [econstructor; [exact H3|constructor]|]. split; [|reflexivity]. destruct o; try exact Logic.I. now apply Nat.leb_le.
        * destruct (proj1 (IH s2 s' _) (ex_intro _ m H2)) as [H4 H5]. split; [econstructor; [exact H3|exact H4]|]. split; [|exact H5].
          destruct o; try exact Logic.I. now apply Nat.leb_le.
      + intros [H HR]. inversion H as [|? ? s1 ? ? ? H1 H2]; subst. cbn [p_rules] in HR. destruct HR as [Hn HR].
        assert (Hm : p_may (mk_pmon false k) o = true) by (destruct o; try reflexivity; cbn; now apply Nat.leb_le).
        assert (Hd : p_do (guard_producer stop P) o (s, mk_pmon false k) = Ret (s1, p_saw (mk_pmon false k) o r, r)) by (apply guard_p_do; eauto).
        destruct (p_ends r) eqn:He.
        * subst h. inversion H2; subst. eexists. econstructor; [exact Hd|constructor].
        * destruct (proj2 (IH s1 s' (p_shown k o r)) (conj H2 HR)) as [m H3]. exists m. econstructor; [exact Hd|]. unfold p_saw. cbn [pm_shown]. now rewrite He.
  Qed.

  Lemma guard_c_trace : forall (C : bulk_consumer S T F E) h s s' k w m, w <= k ->
    c_trace (guard_consumer stop C) (s, mk_cmon false k w) h (s', m) -> c_trace C s h s' /\ c_rules k (no_writes h).
  Proof.
    intros C. assert (Hover : forall h s k w s' m, c_trace (guard_consumer stop C) (s, mk_cmon true k w) h (s', m) -> no_writes h = [] /\ c_trace C s h s').
    { induction h as [|[o r] h IH]; intros s k w s' m H; inversion H as [|? ? s1 ? ? ? H1 H2]; subst.
      - split; [reflexivity|constructor].
      - apply guard_c_do in H1 as (Hm & s2 & r2 & H3 & [= -> <-]). destruct o; try discriminate.
        apply IH in H2 as [H4 H5]. split; [exact H4|]. econstructor; [exact H3|exact H5]. }
    induction h as [|[o r] h IH]; intros s s' k w m Hw H; inversion H as [|? ? s1 ? ? ? H1 H2]; subst.
    - split; [constructor|exact Logic.I].
    - apply guard_c_do in H1 as (Hm & s2 & r2 & H3 & [= -> <-]).
      assert (Hstep : c_trace C s2 h s' /\ if c_ends o r then no_writes h = [] else c_rules (c_shown k o r) (no_writes h)).
      { unfold c_saw in H2. cbn [cm_over cm_shown cm_written] in H2. destruct o as [y|f| | |ys|n|buf].
        5: { apply IH in H2 as [H4 H5]; [|lia]. split; [exact H4|]. cbn in H3. injection H3 as <- <-. exact H5. }
        all: destruct (c_ends _ r); [apply Hover in H2 as [H4 H5]; now split|apply IH in H2; [exact H2|cbn; lia]]. }
      destruct Hstep as [H4 H5]. split; [econstructor; [exact H3|exact H4]|].
      destruct o as [y|f| | |ys|n|buf]; cbn [no_writes filter fst c_rules]; try (split; [exact Logic.I|exact H5]).
      + cbn in H3. injection H3 as <- <-. exact H5.
      + split; [|exact H5]. cbn in Hm. apply Nat.leb_le in Hm. lia.
  Qed.
End Faithful.

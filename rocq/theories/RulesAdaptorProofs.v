(** The adaptors obey the rules of their inner objects when their callers obey theirs. *)
From Coq Require Import Bool List Arith Lia.
From Coq.Init Require Import Byte.
From Verif Require Import Prelude QueueModel Traits BasicModel AdaptorModel ScramblerModel MergeModel CodecModel EndianModel Contracts AdaptorSpec RulesSpec RulesProofs.
Import ListNotations.
Set Implicit Arguments.

(** The inner object may be used whenever the outer one may be, and has at least as much on display. *)
Definition p_below (m m' : pmon) : Prop := pm_over m = true \/ (pm_over m' = false /\ pm_shown m <= pm_shown m').
Definition c_below (m m' : cmon) : Prop :=
  cm_over m = true \/ (cm_over m' = false /\ cm_shown m <= cm_shown m' /\ cm_written m <= cm_written m').

Lemma p_below_use : forall m m', p_below m m' -> pm_over m = false -> pm_over m' = false /\ pm_shown m <= pm_shown m'.
Proof. intros m m' [H|H] H'; [congruence|exact H]. Qed.
Lemma c_below_use : forall m m', c_below m m' -> cm_over m = false -> cm_over m' = false /\ cm_shown m <= cm_shown m' /\ cm_written m <= cm_written m'.
Proof. intros m m' [H|H] H'; [congruence|exact H]. Qed.

Ltac below := first [now left | right; cbn -[Nat.min Nat.max]; repeat split; auto; lia].
Ltac done := apply kept_ret; [reflexivity|cbn [fst snd]; try below].

Section PlainAdaptors.
  Variable bad : forall X : Type, outcome X.
  Context {S T F E : Type}.

  Section Producer.
    Variable P : bulk_producer S T F E.
    Notation GP := (guard_producer bad P).

    (** *** Limit *)

    Lemma limit_producer_kept : forall ops s m, p_below m (snd (lim_inner s)) ->
      kept (seen lim_forget) (fun x => p_below (snd (fst x)) (snd (lim_inner (fst (fst x)))))
        (p_obeying (limit_producer GP) ops m s) (p_obeying (limit_producer P) ops m (lim_forget s)).
    Proof.
      intros ops s m HI.
      apply producer_of_kept with (Inv := fun s m => p_below m (snd (lim_inner s))) (slurping := True); auto; clear ops s m HI.
      - intros. now left.
      - intros s m [H|[H1 H2]]; [now left|]. destruct (pm_over m) eqn:Hm; [now left|right]. cbn. split; [exact H1|lia].
      - intros [[i m'] n] m HI Hm. destruct (p_below_use HI Hm) as [Ho Hs]. unfold limit_produce, lim_forget. cbn [lim_remaining lim_inner fst snd] in *.
        destruct n as [|n]; [done|].
        eapply kept_bind; [apply guard_produce, Ho|]. intros [[i1 m1] [[x|f]|e]]; unfold unmon; cbn [fst snd]; intros ->; done.
      - intros _ [[i m'] n] m HI Hm. destruct (p_below_use HI Hm) as [Ho Hs]. unfold limit_slurp, lim_forget. cbn [lim_remaining lim_inner fst snd] in *.
        eapply kept_bind; [apply guard_slurp, Ho|]. intros [[i1 m1] [[]|e]]; unfold unmon; cbn [fst snd]; intros ->; done.
      - intros [[i m'] n] m HI Hm. destruct (p_below_use HI Hm) as [Ho Hs]. unfold limit_expose, lim_forget. cbn [lim_remaining lim_inner fst snd] in *.
        destruct (n =? 0); [done|].
        eapply kept_bind; [apply guard_expose, Ho|]. intros [[i1 m1] [[xs|f]|e]]; unfold unmon; cbn [fst snd lim_remaining]; intros ->; [|done..].
        apply kept_same. intros ys Hys. unfold slice_to in Hys. match type of Hys with (if ?b then _ else _) = _ => destruct b; [discriminate|] end.
        injection Hys as <-. apply kept_ret; [reflexivity|]. right. cbn -[Nat.min]. rewrite firstn_length. split; [reflexivity|lia].
      - intros k [[i m'] n] m HI Hm Hk. destruct (p_below_use HI Hm) as [Ho Hs]. unfold limit_consider, lim_forget. cbn [lim_remaining lim_inner fst snd] in *.
        apply kept_same. intros room _.
        eapply kept_bind; [apply guard_consider; [exact Ho|lia]|]. intros [[i1 m1] [[]|e]]; unfold unmon; cbn [fst snd]; intros ->; done.
    Qed.

    (** *** MapFinal *)

    Lemma map_final_producer_kept : forall B ops (s : with_fun (S * pmon) (F -> B)) m, p_below m (snd (wf_inner s)) ->
      kept (seen wf_forget) (fun x => p_below (snd (fst x)) (snd (wf_inner (fst (fst x)))))
        (p_obeying (map_final_producer GP) ops m s) (p_obeying (map_final_producer P) ops m (wf_forget s)).
    Proof.
      intros B ops s m HI.
      apply producer_of_kept with (Inv := fun s m => p_below m (snd (wf_inner s))) (slurping := True); auto; clear ops s m HI.
      - intros. now left.
      - intros s m [H|[H1 H2]]; [now left|]. destruct (pm_over m) eqn:Hm; [now left|right]. cbn. split; [exact H1|lia].
      - intros [[i m'] g] m HI Hm. destruct (p_below_use HI Hm) as [Ho Hs]. unfold map_final_produce, wf_forget. cbn [wf_inner wf_fun fst snd] in *.
        eapply kept_bind; [apply guard_produce, Ho|]. intros [[i1 m1] [[x|f]|e]]; unfold unmon; cbn [fst snd map_final_result wf_fun]; intros ->; [done| |done].
        apply kept_same. intros h _. done.
      - intros _ [[i m'] g] m HI Hm. destruct (p_below_use HI Hm) as [Ho Hs]. unfold map_final_slurp, wf_forget. cbn [wf_inner wf_fun fst snd] in *.
        eapply kept_bind; [apply guard_slurp, Ho|]. intros [[i1 m1] [[]|e]]; unfold unmon; cbn [fst snd]; intros ->; done.
      - intros [[i m'] g] m HI Hm. destruct (p_below_use HI Hm) as [Ho Hs]. unfold map_final_expose, wf_forget. cbn [wf_inner wf_fun fst snd] in *.
        eapply kept_bind; [apply guard_expose, Ho|]. intros [[i1 m1] [[x|f]|e]]; unfold unmon; cbn [fst snd map_final_result wf_fun]; intros ->; [done| |done].
        apply kept_same. intros h _. done.
      - intros k [[i m'] g] m HI Hm Hk. destruct (p_below_use HI Hm) as [Ho Hs]. unfold map_final_consider, wf_forget. cbn [wf_inner wf_fun fst snd] in *.
        eapply kept_bind; [apply guard_consider; [exact Ho|lia]|]. intros [[i1 m1] [[]|e]]; unfold unmon; cbn [fst snd]; intros ->; done.
    Qed.

    (** *** Invariant *)

    Lemma kept_check : forall (A A' B : Type) (f : A -> A') Q (s : invariant B) (s' : invariant S) g o,
      inv_active s = inv_active s' -> kept f Q g o -> kept f Q (inv_check s g) (inv_check s' o).
    Proof. intros A A' B f Q s s' g o H HK. unfold inv_check. rewrite H. destruct (inv_active s'); [exact HK|apply kept_panic]. Qed.

    Lemma invariant_producer_kept : forall ops (s : invariant (S * pmon)) m, p_below m (snd (inv_inner s)) ->
      kept (seen inv_forget) (fun x => p_below (snd (fst x)) (snd (inv_inner (fst (fst x)))))
        (p_obeying (invariant_producer GP) ops m s) (p_obeying (invariant_producer P) ops m (inv_forget s)).
    Proof.
      intros ops s m HI.
      apply producer_of_kept with (Inv := fun s m => p_below m (snd (inv_inner s))) (slurping := True); auto; clear ops s m HI.
      - intros. now left.
      - intros s m [H|[H1 H2]]; [now left|]. destruct (pm_over m) eqn:Hm; [now left|right]. cbn. split; [exact H1|lia].
      - intros [[i m'] g k] m HI Hm. destruct (p_below_use HI Hm) as [Ho Hs]. unfold invariant_produce, inv_forget. cbn [inv_inner inv_active inv_exposed fst snd] in *.
        apply kept_check; [reflexivity|].
        eapply kept_bind; [apply guard_produce, Ho|]. intros [[i1 m1] [[x|f]|e]]; unfold unmon; cbn [fst snd]; intros ->; done.
      - intros _ [[i m'] g k] m HI Hm. destruct (p_below_use HI Hm) as [Ho Hs]. unfold invariant_slurp, inv_forget. cbn [inv_inner inv_active inv_exposed fst snd] in *.
        apply kept_check; [reflexivity|].
        eapply kept_bind; [apply guard_slurp, Ho|]. intros [[i1 m1] [[]|e]]; unfold unmon; cbn [fst snd]; intros ->; done.
      - intros [[i m'] g k] m HI Hm. destruct (p_below_use HI Hm) as [Ho Hs]. unfold invariant_expose, inv_forget. cbn [inv_inner inv_active inv_exposed fst snd] in *.
        apply kept_check; [reflexivity|].
        eapply kept_bind; [apply guard_expose, Ho|]. intros [[i1 m1] [[x|f]|e]]; unfold unmon; cbn [fst snd]; intros ->; done.
      - intros n [[i m'] g k] m HI Hm Hn. destruct (p_below_use HI Hm) as [Ho Hs]. unfold invariant_consider, inv_forget. cbn [inv_inner inv_active inv_exposed fst snd] in *.
        apply kept_check; [reflexivity|]. destruct (k <? n); [apply kept_panic|].
        apply kept_same. intros k1 _.
        eapply kept_bind; [apply guard_consider; [exact Ho|lia]|]. intros [[i1 m1] [[]|e]]; unfold unmon; cbn [fst snd]; intros ->; done.
    Qed.
  End Producer.

  Section Consumer.
    Variable C : bulk_consumer S T F E.
    Notation GC := (guard_consumer bad C).

    Lemma c_below_zero : forall m m', c_below m m' -> c_below (mk_cmon (cm_over m) 0 0) m'.
    Proof. intros m m' [H|[H1 H2]]; [now left|]. destruct (cm_over m) eqn:Hm; [now left|right]. cbn. split; [exact H1|lia]. Qed.

    Lemma c_below_write : forall m m' ys, c_below m m' -> cm_over m = false ->
      c_below (c_saw m (@CWrite T F ys) (@CANone E)) (c_saw m' (@CWrite T F ys) (@CANone E)).
    Proof. intros m m' ys HI Hm. destruct (c_below_use HI Hm) as (Ho & Hs & Hw). right. cbn -[Nat.min Nat.max]. repeat split; [exact Ho|exact Hs|lia]. Qed.

    Lemma limit_consumer_kept : forall ops s m, c_below m (snd (lim_inner s)) ->
      kept (seen (@lim_forget S cmon)) (fun x => c_below (snd (fst x)) (snd (lim_inner (fst (fst x)))))
        (c_obeying (limit_consumer GC) ops m s) (c_obeying (limit_consumer C) ops m (lim_forget s)).
    Proof.
      intros ops s m HI.
      apply consumer_of_kept with (Inv := fun s m => c_below m (snd (lim_inner s))); auto; clear ops s m HI.
      - intros. now left.
      - intros s m HI. now apply c_below_zero.
      - intros x [[i m'] n] m HI Hm. destruct (c_below_use HI Hm) as (Ho & Hs & Hw). unfold limit_consume, lim_forget. cbn [lim_remaining lim_inner fst snd] in *.
        destruct n as [|n]; [done|].
        eapply kept_bind; [apply guard_consume, Ho|]. intros [[i1 m1] [[]|e]]; unfold unmon; cbn [fst snd]; intros ->; done.
      - intros f [[i m'] n] m HI Hm. destruct (c_below_use HI Hm) as (Ho & Hs & Hw). unfold limit_close, lim_forget. cbn [lim_remaining lim_inner fst snd] in *.
        eapply kept_bind; [apply guard_close, Ho|]. intros [[i1 m1] [[]|e]]; unfold unmon; cbn [fst snd]; intros ->; done.
      - intros [[i m'] n] m HI Hm. destruct (c_below_use HI Hm) as (Ho & Hs & Hw). unfold limit_flush, lim_forget. cbn [lim_remaining lim_inner fst snd] in *.
        eapply kept_bind; [apply guard_flush, Ho|]. intros [[i1 m1] [[]|e]]; unfold unmon; cbn [fst snd]; intros ->; done.
      - intros [[i m'] n] m HI Hm. destruct (c_below_use HI Hm) as (Ho & Hs & Hw). unfold limit_expose_slots, lim_forget. cbn [lim_remaining lim_inner fst snd] in *.
        destruct (n =? 0); [done|].
        eapply kept_bind; [apply guard_expose_slots, Ho|]. intros [[i1 m1] [k|e]]; unfold unmon; cbn [fst snd]; intros ->; done.
      - intros ys [[i m'] n] m HI Hm. split; [reflexivity|]. cbn [lim_inner limit_write guard_consumer c_write fst snd] in *. now apply c_below_write.
      - intros k [[i m'] n] m HI Hm Hk. destruct (c_below_use HI Hm) as (Ho & Hs & Hw). unfold limit_consume_slots, lim_forget. cbn [lim_remaining lim_inner fst snd] in *.
        apply kept_same. intros room _.
        eapply kept_bind; [apply guard_consume_slots; [exact Ho|lia]|]. intros [[i1 m1] [[]|e]]; unfold unmon; cbn [fst snd]; intros ->; done.
    Qed.

    Lemma map_final_consumer_kept : forall B ops (s : with_fun (S * cmon) (B -> F)) m, c_below m (snd (wf_inner s)) ->
      kept (seen wf_forget) (fun x => c_below (snd (fst x)) (snd (wf_inner (fst (fst x)))))
        (c_obeying (map_final_consumer GC) ops m s) (c_obeying (map_final_consumer C) ops m (wf_forget s)).
    Proof.
      intros B ops s m HI.
      apply consumer_of_kept with (Inv := fun s m => c_below m (snd (wf_inner s))); auto; clear ops s m HI.
      - intros. now left.
      - intros s m HI. now apply c_below_zero.
      - intros x [[i m'] n] m HI Hm. destruct (c_below_use HI Hm) as (Ho & Hs & Hw). unfold map_final_consume, wf_forget. cbn [wf_inner wf_fun fst snd] in *.
        eapply kept_bind; [apply guard_consume, Ho|]. intros [[i1 m1] [[]|e]]; unfold unmon; cbn [fst snd]; intros ->; done.
      - intros f [[i m'] n] m HI Hm. destruct (c_below_use HI Hm) as (Ho & Hs & Hw). unfold map_final_close, wf_forget. cbn [wf_inner wf_fun fst snd] in *.
        apply kept_same. intros g _.
        eapply kept_bind; [apply guard_close, Ho|]. intros [[i1 m1] [[]|e]]; unfold unmon; cbn [fst snd]; intros ->; done.
      - intros [[i m'] n] m HI Hm. destruct (c_below_use HI Hm) as (Ho & Hs & Hw). unfold map_final_flush, wf_forget. cbn [wf_inner wf_fun fst snd] in *.
        eapply kept_bind; [apply guard_flush, Ho|]. intros [[i1 m1] [[]|e]]; unfold unmon; cbn [fst snd]; intros ->; done.
      - intros [[i m'] n] m HI Hm. destruct (c_below_use HI Hm) as (Ho & Hs & Hw). unfold map_final_expose_slots, wf_forget. cbn [wf_inner wf_fun fst snd] in *.
        eapply kept_bind; [apply guard_expose_slots, Ho|]. intros [[i1 m1] [k|e]]; unfold unmon; cbn [fst snd]; intros ->; done.
      - intros ys [[i m'] n] m HI Hm. split; [reflexivity|]. cbn [wf_inner map_final_write guard_consumer c_write fst snd] in *. now apply c_below_write.
      - intros k [[i m'] n] m HI Hm Hk. destruct (c_below_use HI Hm) as (Ho & Hs & Hw). unfold map_final_consume_slots, wf_forget. cbn [wf_inner wf_fun fst snd] in *.
        eapply kept_bind; [apply guard_consume_slots; [exact Ho|lia]|]. intros [[i1 m1] [[]|e]]; unfold unmon; cbn [fst snd]; intros ->; done.
    Qed.

    Lemma invariant_consumer_kept : forall ops (s : invariant (S * cmon)) m, c_below m (snd (inv_inner s)) ->
      kept (seen inv_forget) (fun x => c_below (snd (fst x)) (snd (inv_inner (fst (fst x)))))
        (c_obeying (invariant_consumer GC) ops m s) (c_obeying (invariant_consumer C) ops m (inv_forget s)).
    Proof.
      intros ops s m HI.
      apply consumer_of_kept with (Inv := fun s m => c_below m (snd (inv_inner s))); auto; clear ops s m HI.
      - intros. now left.
      - intros s m HI. now apply c_below_zero.
      - intros x [[i m'] g n] m HI Hm. destruct (c_below_use HI Hm) as (Ho & Hs & Hw). unfold invariant_consume, inv_forget. cbn [inv_inner inv_active inv_exposed fst snd] in *.
        apply kept_check; [reflexivity|].
        eapply kept_bind; [apply guard_consume, Ho|]. intros [[i1 m1] [[]|e]]; unfold unmon; cbn [fst snd]; intros ->; done.
      - intros f [[i m'] g n] m HI Hm. destruct (c_below_use HI Hm) as (Ho & Hs & Hw). unfold invariant_close, inv_forget. cbn [inv_inner inv_active inv_exposed fst snd] in *.
        apply kept_check; [reflexivity|].
        eapply kept_bind; [apply guard_close, Ho|]. intros [[i1 m1] [[]|e]]; unfold unmon; cbn [fst snd]; intros ->; done.
      - intros [[i m'] g n] m HI Hm. destruct (c_below_use HI Hm) as (Ho & Hs & Hw). unfold invariant_flush, inv_forget. cbn [inv_inner inv_active inv_exposed fst snd] in *.
        apply kept_check; [reflexivity|].
        eapply kept_bind; [apply guard_flush, Ho|]. intros [[i1 m1] [[]|e]]; unfold unmon; cbn [fst snd]; intros ->; done.
      - intros [[i m'] g n] m HI Hm. destruct (c_below_use HI Hm) as (Ho & Hs & Hw). unfold invariant_expose_slots, inv_forget. cbn [inv_inner inv_active inv_exposed fst snd] in *.
        apply kept_check; [reflexivity|].
        eapply kept_bind; [apply guard_expose_slots, Ho|]. intros [[i1 m1] [k|e]]; unfold unmon; cbn [fst snd]; intros ->; done.
      - intros ys [[i m'] g n] m HI Hm. split; [reflexivity|]. cbn [inv_inner invariant_write guard_consumer c_write fst snd] in *. now apply c_below_write.
      - intros k [[i m'] g n] m HI Hm Hk. destruct (c_below_use HI Hm) as (Ho & Hs & Hw). unfold invariant_consume_slots, inv_forget. cbn [inv_inner inv_active inv_exposed fst snd] in *.
        apply kept_check; [reflexivity|]. destruct (n <? k); [apply kept_panic|]. apply kept_same. intros room _.
        eapply kept_bind; [apply guard_consume_slots; [exact Ho|lia]|]. intros [[i1 m1] [[]|e]]; unfold unmon; cbn [fst snd]; intros ->; done.
    Qed.
  End Consumer.
End PlainAdaptors.

(** *** MapError *)
Section MapErrorRules.
  Variable bad : forall X : Type, outcome X.
  Context {S T F E B : Type}.

  Lemma map_error_call_kept : forall M X (g : outcome (S * M * res X E)) o (s : with_fun (S * M) (E -> B)) (K : S * M * res X E -> Prop)
      (Q : with_fun (S * M) (E -> B) * res X B -> Prop),
    kept unmon K g o ->
    (forall i m r h, K (i, m, r) -> Q (mk_with_fun (i, m) None, map_err h r)) ->
    kept (forgot (@wf_forget S M (E -> B))) Q (map_error_call (fun _ => g) s) (map_error_call (fun _ => o) (wf_forget s)).
  Proof.
    intros M X g o s K Q HK HQ. unfold map_error_call. eapply kept_bind; [exact HK|]. intros [[i m] r] H. unfold unmon. cbn [fst snd].
    change (wf_fun (wf_forget s)) with (wf_fun s). apply kept_same. intros h _. apply kept_ret; [reflexivity|]. now apply HQ.
  Qed.

  Lemma map_error_producer_kept : forall (P : bulk_producer S T F E) ops (s : with_fun (S * pmon) (E -> B)) m, p_below m (snd (wf_inner s)) ->
    kept (seen wf_forget) (fun x => p_below (snd (fst x)) (snd (wf_inner (fst (fst x)))))
      (p_obeying (map_error_producer (guard_producer bad P)) ops m s) (p_obeying (map_error_producer P) ops m (wf_forget s)).
  Proof.
    intros P ops s m HI.
    apply producer_of_kept with (Inv := fun s m => p_below m (snd (wf_inner s))) (slurping := True); auto; clear ops s m HI.
    - intros. now left.
    - intros s m [H|[H1 H2]]; [now left|]. destruct (pm_over m) eqn:Hm; [now left|right]. cbn. split; [exact H1|lia].
    - intros [[i m'] g] m HI Hm. destruct (p_below_use HI Hm) as [Ho Hs]. cbn [fst snd wf_inner] in Ho, Hs.
      eapply map_error_call_kept; [apply guard_produce, Ho|]. intros i1 m1 [[x|f]|e] h; cbn [fst snd wf_inner]; intros ->; below.
    - intros _ [[i m'] g] m HI Hm. destruct (p_below_use HI Hm) as [Ho Hs]. cbn [fst snd wf_inner] in Ho, Hs.
      eapply map_error_call_kept; [apply guard_slurp, Ho|]. intros i1 m1 [[]|e] h; cbn [fst snd wf_inner]; intros ->; below.
    - intros [[i m'] g] m HI Hm. destruct (p_below_use HI Hm) as [Ho Hs]. cbn [fst snd wf_inner] in Ho, Hs.
      eapply map_error_call_kept; [apply guard_expose, Ho|]. intros i1 m1 [[x|f]|e] h; cbn [fst snd wf_inner]; intros ->; below.
    - intros k [[i m'] g] m HI Hm Hk. destruct (p_below_use HI Hm) as [Ho Hs]. cbn [fst snd wf_inner] in Ho, Hs.
      eapply map_error_call_kept; [apply guard_consider; [exact Ho|cbn in *; lia]|]. intros i1 m1 [[]|e] h; cbn [fst snd wf_inner] in *; intros ->; below.
  Qed.

  Lemma map_error_consumer_kept : forall (C : bulk_consumer S T F E) ops (s : with_fun (S * cmon) (E -> B)) m, c_below m (snd (wf_inner s)) ->
    kept (seen wf_forget) (fun x => c_below (snd (fst x)) (snd (wf_inner (fst (fst x)))))
      (c_obeying (map_error_consumer (guard_consumer bad C)) ops m s) (c_obeying (map_error_consumer C) ops m (wf_forget s)).
  Proof.
    intros C ops s m HI.
    apply consumer_of_kept with (Inv := fun s m => c_below m (snd (wf_inner s))); auto; clear ops s m HI.
    - intros. now left.
    - intros s m HI. now apply c_below_zero.
    - intros x [[i m'] g] m HI Hm. destruct (c_below_use HI Hm) as (Ho & Hs & Hw). cbn [fst snd wf_inner] in Ho, Hs, Hw.
      eapply map_error_call_kept; [apply guard_consume, Ho|]. intros i1 m1 [[]|e] h; cbn [fst snd wf_inner]; intros ->; below.
    - intros f [[i m'] g] m HI Hm. destruct (c_below_use HI Hm) as (Ho & Hs & Hw). cbn [fst snd wf_inner] in Ho, Hs, Hw.
      eapply map_error_call_kept; [apply guard_close, Ho|]. intros i1 m1 [[]|e] h; cbn [fst snd wf_inner]; intros ->; below.
    - intros [[i m'] g] m HI Hm. destruct (c_below_use HI Hm) as (Ho & Hs & Hw). cbn [fst snd wf_inner] in Ho, Hs, Hw.
      eapply map_error_call_kept; [apply guard_flush, Ho|]. intros i1 m1 [[]|e] h; cbn [fst snd wf_inner]; intros ->; below.
    - intros [[i m'] g] m HI Hm. destruct (c_below_use HI Hm) as (Ho & Hs & Hw). cbn [fst snd wf_inner] in Ho, Hs, Hw.
      eapply map_error_call_kept; [apply guard_expose_slots, Ho|]. intros i1 m1 [k|e] h; cbn [fst snd wf_inner]; intros ->; below.
    - intros ys [[i m'] g] m HI Hm. split; [reflexivity|]. cbn [wf_inner guard_consumer c_write fst snd] in *. exact (@c_below_write T F E _ _ ys HI Hm).
    - intros k [[i m'] g] m HI Hm Hk. destruct (c_below_use HI Hm) as (Ho & Hs & Hw). cbn [fst snd wf_inner] in Ho, Hs, Hw.
      eapply map_error_call_kept; [apply guard_consume_slots; [exact Ho|cbn in *; lia]|]. intros i1 m1 [[]|e] h; cbn [fst snd wf_inner] in *; intros ->; below.
  Qed.
End MapErrorRules.

(** *** MapItem *)
Section MapItemRules.
  Variable bad : forall X : Type, outcome X.
  Context {S T U W F E : Type}.

  (** Without bulk methods: the inner object is not over while the outer one is not. *)
  Definition over_below (over inner : bool) : Prop := over = false -> inner = false.


  Lemma map_item_producer_kept : forall (P : bulk_producer S T F E) (f : W -> T -> W * U) ops s over, over_below over (pm_over (snd (mi_inner s))) ->
    kept (seen mi_forget) (fun x => over_below (snd (fst x)) (pm_over (snd (mi_inner (fst (fst x))))))
      (bp_obeying (map_item_producer (guard_producer bad P) f) ops over s) (bp_obeying (map_item_producer P f) ops over (mi_forget s)).
  Proof.
    intros P f ops s over HI.
    apply obeying_kept with (Inv := fun s over => over_below over (pm_over (snd (mi_inner s)))) (good := fun _ => True);
      [clear ops s over HI|exact HI|now apply Forall_forall].
    intros o [[i m] w] over HI _ Ho. apply negb_true_iff in Ho. specialize (HI Ho). cbn [mi_inner snd] in HI.
    destruct o; cbn [bp_do map_item_producer p_produce p_producer p_slurp].
    - eapply kept_bind with (f := forgot mi_forget) (Q := fun x => over_below (bp_ends (BPItem (snd x))) (pm_over (snd (mi_inner (fst x))))).
      + unfold map_item_produce, mi_forget. cbn [mi_inner mi_closure fst snd].
        eapply kept_bind; [apply guard_produce, HI|]. intros [[i1 m1] [[x|f1]|e]]; unfold unmon; cbn [fst snd]; intros ->.
        * destruct (f w x) as [w1 y]. now apply kept_ret.
        * now apply kept_ret.
        * now apply kept_ret.
      + intros [s1 r] H. apply kept_ret; [reflexivity|exact H].
    - eapply kept_bind with (f := forgot mi_forget) (Q := fun x => over_below (bp_ends (@BPUnit U F E (snd x))) (pm_over (snd (mi_inner (fst x))))).
      + unfold map_item_slurp, mi_forget. cbn [mi_inner mi_closure fst snd].
        eapply kept_bind; [apply guard_slurp, HI|]. intros [[i1 m1] [[]|e]]; unfold unmon; cbn [fst snd]; intros ->; now apply kept_ret.
      + intros [s1 r] H. apply kept_ret; [reflexivity|exact H].
  Qed.

  Lemma map_item_consumer_kept : forall (C : bulk_consumer S T F E) (f : W -> U -> W * T) ops s over, over_below over (cm_over (snd (mi_inner s))) ->
    kept (seen mi_forget) (fun x => over_below (snd (fst x)) (cm_over (snd (mi_inner (fst (fst x))))))
      (bc_obeying (map_item_consumer (guard_consumer bad C) f) ops over s) (bc_obeying (map_item_consumer C f) ops over (mi_forget s)).
  Proof.
    intros C f ops s over HI.
    apply obeying_kept with (Inv := fun s over => over_below over (cm_over (snd (mi_inner s)))) (good := fun _ => True);
      [clear ops s over HI|exact HI|now apply Forall_forall].
    intros o [[i m] w] over HI _ Ho. apply negb_true_iff in Ho. specialize (HI Ho). cbn [mi_inner snd] in HI.
    destruct o as [x|fin|]; cbn [bc_do map_item_consumer c_consume c_close c_consumer c_flush].
    - unfold map_item_consume, mi_forget. cbn [mi_inner mi_closure fst snd]. destruct (f w x) as [w1 y].
      eapply kept_bind; [apply guard_consume, HI|]. intros [[i1 m1] [[]|e]]; unfold unmon; cbn [fst snd]; intros ->; now apply kept_ret.
    - unfold map_item_close, mi_forget. cbn [mi_inner mi_closure fst snd].
      eapply kept_bind; [apply guard_close, HI|]. intros [[i1 m1] [[]|e]]; unfold unmon; cbn [fst snd]; intros ->; now apply kept_ret.
    - unfold map_item_flush, mi_forget. cbn [mi_inner mi_closure fst snd].
      eapply kept_bind; [apply guard_flush, HI|]. intros [[i1 m1] [[]|e]]; unfold unmon; cbn [fst snd]; intros ->; now apply kept_ret.
  Qed.
End MapItemRules.

(** *** The scramblers *)
Section ScramblerRules.
  Variable bad : forall X : Type, outcome X.

  Lemma kept_assert : forall A B (f : A -> B) Q dbg b g o, kept f Q g o -> kept f Q (debug_assert dbg b g) (debug_assert dbg b o).
  Proof. intros A B f Q dbg b g o H. unfold debug_assert. destruct (dbg && negb b); [apply kept_panic|exact H]. Qed.

  Section Producer.
    Context {S T F E : Type} (dbg : bool) (P : bulk_producer S T F E).
    Notation GP := (guard_producer bad P).
    Notation st := (pscr (S * pmon) T F E).

    Definition ps_alive (s : st) : Prop := ps_last s = None -> pm_over (snd (ps_inner s)) = false.

    Lemma pscr_advance_kept : forall s : st, kept ps_forget (fun s' => ps_inner s' = ps_inner s /\ ps_last s' = ps_last s) (pscr_advance s) (pscr_advance (ps_forget s)).
    Proof. intros s. unfold pscr_advance. apply kept_same. intros i _. now apply kept_ret. Qed.

    Lemma q_bulk_enqueue_bound : forall xs (b b' : fixed T) n, q_bulk_enqueue (fixed_queue T) xs b = Ret (b', n) -> n <= length xs.
    Proof.
      intros xs b b' n. unfold q_bulk_enqueue. destruct (q_expose_slots _ b) as [[b1 [k|]]| |]; try discriminate; cbn [bind].
      - destruct (q_consider_enqueued _ _ _); try discriminate. cbn [bind]. intros [= <- <-]. lia.
      - intros [= <- <-]. lia.
    Qed.

    Lemma pscr_perform_kept : forall s : st, pm_over (snd (ps_inner s)) = false ->
      kept (forgot ps_forget) (fun x => ps_last (fst x) = ps_last s /\ (snd x = Ok None -> pm_over (snd (ps_inner (fst x))) = false))
        (pscr_perform_operation dbg GP s) (pscr_perform_operation dbg P (ps_forget s)).
    Proof.
      intros [[i m] b l ops idx] Hm. cbn [ps_inner snd] in Hm. unfold pscr_perform_operation, ps_forget, ps_len.
      cbn [ps_inner ps_buffer ps_last ps_operations ps_index fst snd].
      apply kept_assert. apply kept_same. intros op _. destruct op as [|n|].
      - eapply kept_bind; [apply guard_produce, Hm|]. intros [[i1 m1] [[x|f]|e]]; unfold unmon; cbn [fst snd]; intros ->; [|apply kept_ret; [reflexivity|split; [reflexivity|discriminate]]..].
        unfold ps_with_inner. cbn [ps_inner ps_buffer ps_last ps_operations ps_index fst snd]. apply kept_same. intros [b1 yay] _. apply kept_assert.
        eapply kept_bind; [apply pscr_advance_kept|]. intros s1 [H1 H2]. apply kept_ret; [reflexivity|]. cbn [fst snd]. rewrite H1, H2. now split.
      - eapply kept_bind; [apply guard_expose, Hm|]. intros [[i1 m1] [[xs|f]|e]]; unfold unmon; cbn [fst snd]; intros ->; [|apply kept_ret; [reflexivity|split; [reflexivity|discriminate]]..].
        unfold ps_with_inner, ps_with_buffer. cbn [ps_inner ps_buffer ps_last ps_operations ps_index fst snd].
        apply kept_same. intros ys Hys. apply kept_same. intros [b1 k] Hk.
        eapply kept_bind; [apply guard_consider; [reflexivity|]|].
        + apply q_bulk_enqueue_bound in Hk. unfold slice_to in Hys. match type of Hys with (if ?c then _ else _) = _ => destruct c; [discriminate|] end.
          injection Hys as <-. rewrite firstn_length in Hk. cbn. lia.
        + intros [[i2 m2] [[]|e]]; unfold unmon; cbn [fst snd]; intros ->; [|apply kept_ret; [reflexivity|split; [reflexivity|discriminate]]].
          eapply kept_bind; [apply (pscr_advance_kept (mk_pscr (i2, _) b1 l ops idx))|]. intros s1 [H1 H2].
          apply kept_ret; [reflexivity|]. cbn [fst snd]. rewrite H1, H2. now split.
      - eapply kept_bind; [apply guard_slurp, Hm|]. intros [[i1 m1] [[]|e]]; unfold unmon; cbn [fst snd]; intros ->; [|apply kept_ret; [reflexivity|split; [reflexivity|discriminate]]].
        unfold ps_with_inner. cbn [ps_inner ps_buffer ps_last ps_operations ps_index fst snd].
        eapply kept_bind; [apply (pscr_advance_kept (mk_pscr (i1, _) b l ops idx))|]. intros s1 [H1 H2].
        apply kept_ret; [reflexivity|]. cbn [fst snd]. rewrite H1, H2. now split.
    Qed.

    Lemma pscr_fill_loop_kept : forall fuel s, ps_alive s -> kept ps_forget ps_alive (pscr_fill_loop dbg fuel GP s) (pscr_fill_loop dbg fuel P (ps_forget s)).
    Proof.
      induction fuel as [|fuel IH]; intros s Hs; [apply kept_no_fuel|]. cbn [pscr_fill_loop].
      change (ps_last (ps_forget s)) with (ps_last s). change (ps_len (ps_forget s)) with (ps_len s). change (ps_buffer (ps_forget s)) with (ps_buffer s).
      destruct (ps_last s) eqn:Hl; [now apply kept_ret|]. destruct (ps_len s <? fixed_capacity (ps_buffer s)); [|now apply kept_ret].
      eapply kept_bind; [apply pscr_perform_kept, Hs, Hl|]. intros [s1 r] [H1 H2]. cbn [fst snd forgot] in *.
      destruct r as [[f|]|e].
      - apply (IH (ps_with_last (Some (Ok f)) s1)). unfold ps_alive. cbn. discriminate.
      - apply IH. intros _. now apply H2.
      - apply (IH (ps_with_last (Some (Err e)) s1)). unfold ps_alive. cbn. discriminate.
    Qed.

    Lemma pscr_fill_queue_kept : forall fuel s, ps_alive s ->
      kept (forgot ps_forget) (fun x => snd x = None -> ps_alive (fst x)) (pscr_fill_queue dbg fuel GP s) (pscr_fill_queue dbg fuel P (ps_forget s)).
    Proof.
      intros fuel s Hs. unfold pscr_fill_queue. eapply kept_bind; [apply pscr_fill_loop_kept, Hs|]. intros s1 H1.
      change (ps_len (ps_forget s1)) with (ps_len s1). destruct (ps_len s1 =? 0); apply kept_ret; try reflexivity; cbn [fst snd]; [|now intros _].
      intros Hl _. cbn. now apply H1.
    Qed.

    (** While the scrambler is not over, the inner producer may be called unless its last value is stored. *)
    Definition ps_inv (s : st) (m : pmon) : Prop := pm_over m = false -> ps_alive s.

    Lemma pscr_producer_kept : forall fuel ops s m, ps_inv s m -> ~ In PSlurp ops ->
      kept (seen ps_forget) (fun x => ps_inv (fst (fst x)) (snd (fst x)))
        (p_obeying (pscr_producer dbg fuel GP) ops m s) (p_obeying (pscr_producer dbg fuel P) ops m (ps_forget s)).
    Proof.
      intros fuel ops s m HI HS.
      apply producer_of_kept with (Inv := ps_inv) (slurping := False); auto; clear ops s m HI HS.
      - intros s k. unfold ps_inv. cbn. discriminate.
      - intros s m HI Hm. unfold pscr_produce. eapply kept_bind; [apply pscr_fill_queue_kept, HI, Hm|].
        intros [s1 [[f|e]|]] H; cbn [fst snd forgot] in *.
        + apply kept_ret; [reflexivity|]. unfold ps_inv. cbn. discriminate.
        + apply kept_ret; [reflexivity|]. unfold ps_inv. cbn. discriminate.
        + apply kept_same. intros [b o] _. apply kept_same. intros x _. apply kept_ret; [reflexivity|]. intros _. exact (H eq_refl).
      - intros [].
      - intros s m HI Hm. unfold pscr_expose. eapply kept_bind; [apply pscr_fill_queue_kept, HI, Hm|].
        intros [s1 [[f|e]|]] H; cbn [fst snd forgot] in *.
        + apply kept_ret; [reflexivity|]. unfold ps_inv. cbn. discriminate.
        + apply kept_ret; [reflexivity|]. unfold ps_inv. cbn. discriminate.
        + apply kept_same. intros [b o] _. apply kept_same. intros x _. apply kept_ret; [reflexivity|]. intros _. exact (H eq_refl).
      - intros n s m HI Hm _. unfold pscr_consider. apply kept_same. intros b _. apply kept_ret; [reflexivity|]. intros _. exact (HI Hm).
    Qed.
  End Producer.

  Section Consumer.
    Context {S T F E : Type} (dbg : bool) (x0 : T) (C : bulk_consumer S T F E).
    Notation GC := (guard_consumer bad C).
    Notation st := (cscr (S * cmon) T).

    Definition cs_alive (s : st) : Prop := cm_over (snd (cs_inner s)) = false.

    Lemma q_bulk_dequeue_bound : forall xs (b b' : fixed T) ys n, q_bulk_dequeue (fixed_queue T) xs b = Ret (b', (ys, n)) ->
      n <= length xs /\ n <= length ys.
    Proof.
      intros xs b b' ys n. unfold q_bulk_dequeue. destruct (q_expose_items _ b) as [[b1 [zs|]]| |]; try discriminate; cbn [bind].
      - destruct (q_consider_dequeued _ _ _); try discriminate. cbn [bind]. intros [= <- <- <-]. rewrite app_length, firstn_length. lia.
      - intros [= <- <- <-]. lia.
    Qed.

    Lemma cscr_perform_kept : forall s : st, cs_alive s ->
      kept (forgot cs_forget) (fun x => is_ok (snd x) = true -> cs_alive (fst x))
        (cscr_perform_operation dbg x0 GC s) (cscr_perform_operation dbg x0 C (cs_forget s)).
    Proof.
      intros [[i m] b ops idx] Hm. unfold cs_alive in Hm. cbn [cs_inner snd] in Hm. unfold cscr_perform_operation, cs_forget, cs_len.
      cbn [cs_inner cs_buffer cs_operations cs_index fst snd].
      apply kept_assert. apply kept_same. intros op _.
      eapply kept_bind with (f := forgot cs_forget) (Q := fun x => is_ok (snd x) = true -> cs_alive (fst x)).
      - destruct op as [|n|].
        + apply kept_same. intros [b1 o] _. apply kept_same. intros x _. unfold cs_with_buffer, cs_with_inner. cbn [cs_inner cs_buffer cs_operations cs_index fst snd].
          eapply kept_bind; [apply guard_consume, Hm|]. intros [[i1 m1] [[]|e]]; unfold unmon; cbn [fst snd]; intros ->; now apply kept_ret.
        + eapply kept_bind; [apply guard_expose_slots, Hm|]. intros [[i1 m1] [k|e]]; unfold unmon; cbn [fst snd]; intros ->; [|now apply kept_ret].
          unfold cs_with_buffer, cs_with_inner. cbn [cs_inner cs_buffer cs_operations cs_index fst snd]. apply kept_same. intros [b1 [slots amount]] Hb.
          cbn [cs_inner cs_buffer cs_operations cs_index fst snd guard_consumer c_write].
          apply q_bulk_dequeue_bound in Hb. rewrite repeat_length in Hb.
          eapply kept_bind; [apply guard_consume_slots; [reflexivity|]|].
          * cbn -[Nat.min Nat.max]. rewrite firstn_length. lia.
          * intros [[i2 m2] [[]|e]]; unfold unmon; cbn [fst snd]; intros ->; now apply kept_ret.
        + eapply kept_bind; [apply guard_flush, Hm|]. intros [[i1 m1] [[]|e]]; unfold unmon; cbn [fst snd]; intros ->; now apply kept_ret.
      - intros [s1 [[]|e]] H; cbn [fst snd forgot] in *; [|now apply kept_ret].
        unfold cscr_advance. change (cs_operations (cs_forget s1)) with (cs_operations s1). change (cs_index (cs_forget s1)) with (cs_index s1).
        eapply kept_bind with (f := cs_forget) (Q := cs_alive).
        + apply kept_same. intros j _. apply kept_ret; [reflexivity|]. exact (H eq_refl).
        + intros s2 H2. now apply kept_ret.
    Qed.

    Lemma cscr_drain_kept : forall fuel s, cs_alive s ->
      kept (forgot cs_forget) (fun x => is_ok (snd x) = true -> cs_alive (fst x)) (cscr_drain dbg x0 fuel GC s) (cscr_drain dbg x0 fuel C (cs_forget s)).
    Proof.
      induction fuel as [|fuel IH]; intros s Hs; [apply kept_no_fuel|]. cbn [cscr_drain]. change (cs_len (cs_forget s)) with (cs_len s).
      destruct (0 <? cs_len s); [|now apply kept_ret].
      eapply kept_bind; [apply cscr_perform_kept, Hs|]. intros [s1 [[]|e]] H; cbn [fst snd forgot] in *; [apply IH; now apply H|now apply kept_ret].
    Qed.

    Definition cs_inv (s : st) (m : cmon) : Prop := cm_over m = false -> cs_alive s.

    Ltac over := apply kept_ret; [reflexivity|unfold cs_inv; cbn; discriminate].

    Lemma cscr_consumer_kept : forall fuel ops s m, cs_inv s m ->
      kept (seen cs_forget) (fun x => cs_inv (fst (fst x)) (snd (fst x)))
        (c_obeying (cscr_consumer dbg x0 fuel GC) ops m s) (c_obeying (cscr_consumer dbg x0 fuel C) ops m (cs_forget s)).
    Proof.
      intros fuel ops s m HI.
      apply consumer_of_kept with (Inv := cs_inv); auto; clear ops s m HI.
      - intros s k w. unfold cs_inv. cbn. discriminate.
      - intros x s m HI Hm. unfold cscr_consume. apply kept_same. intros [b [y|]] _; [|apply kept_ret; [reflexivity|]; intros _; exact (HI Hm)].
        eapply kept_bind; [apply (cscr_drain_kept fuel (s := cs_with_buffer b s)); exact (HI Hm)|]. intros [s1 [[]|e]] H; cbn [fst snd forgot] in *; [|over].
        apply kept_same. intros [b1 yay] _. apply kept_assert. apply kept_ret; [reflexivity|]. intros _. exact (H eq_refl).
      - intros f s m HI Hm. unfold cscr_close. eapply kept_bind; [apply cscr_drain_kept, HI, Hm|]. intros [[[i m1] b ops idx] [[]|e]] H; cbn [fst snd forgot] in *; [|over].
        unfold cs_forget, cs_with_inner. cbn [cs_inner cs_buffer cs_operations cs_index fst snd].
        eapply kept_bind; [apply guard_close; exact (H eq_refl)|]. intros [[i1 m2] [[]|e]]; unfold unmon; cbn [fst snd]; intros ->; over.
      - intros s m HI Hm. unfold cscr_flush. eapply kept_bind; [apply cscr_drain_kept, HI, Hm|]. intros [[[i m1] b ops idx] [[]|e]] H; cbn [fst snd forgot] in *; [|over].
        unfold cs_forget, cs_with_inner. cbn [cs_inner cs_buffer cs_operations cs_index fst snd].
        eapply kept_bind; [apply guard_flush; exact (H eq_refl)|]. intros [[i1 m2] [[]|e]]; unfold unmon; cbn [fst snd]; intros ->; [|over].
        apply kept_ret; [reflexivity|]. now intros _.
      - intros s m HI Hm. unfold cscr_expose. change (cs_len (cs_forget s)) with (cs_len s). change (cs_buffer (cs_forget s)) with (cs_buffer s).
        destruct (cs_len s <? fixed_capacity (cs_buffer s)).
        + apply kept_same. intros [b o] _. apply kept_same. intros x _. apply kept_ret; [reflexivity|]. intros _. exact (HI Hm).
        + eapply kept_bind; [apply cscr_drain_kept, HI, Hm|]. intros [s1 [[]|e]] H; cbn [fst snd forgot] in *; [|over].
          apply kept_same. intros [b o] _. apply kept_same. intros x _. apply kept_ret; [reflexivity|]. intros _. exact (H eq_refl).
      - intros n s m HI Hm _. unfold cscr_consume_slots. apply kept_same. intros b _. apply kept_ret; [reflexivity|]. intros _. exact (HI Hm).
    Qed.
  End Consumer.
End ScramblerRules.

(** *** Encoders and decoders *)
Section CodecRules.
  Variable bad : forall X : Type, outcome X.
  Context {S F E V O RT : Type}.

  Lemma endian_encode_obedient : forall w, obedient_encode (endian_encode w).
  Proof.
    intros w bad' S' F' E' C v s m Hm. unfold endian_encode. eapply kept_bind; [apply bulk_consume_full_slice_kept, Hm|].
    intros [[s1 m1] [[]|e]] H; unfold c_over_iff in H; cbn [fst snd is_ok negb] in H; unfold unmon; cbn [fst snd]; now apply kept_ret.
  Qed.

  Lemma endian_decode_obedient : forall w, obedient_decode (endian_decode w).
  Proof.
    intros w bad' S' F' E' P s m Hm. unfold endian_decode. eapply kept_bind; [apply bulk_overwrite_full_slice_kept, Hm|].
    intros [[s1 m1] [bytes [[]|e]]] H; unfold p_over_iff in H; cbn [fst snd is_ok negb] in H; unfold unmon; cbn [fst snd]; now apply kept_ret.
  Qed.

  Lemma encoder_kept : forall (encode : encode_fn V) (C : bulk_consumer S byte F E), obedient_encode encode ->
    forall ops s over, over_below over (cm_over (snd s)) ->
    kept (seen fst) (fun x => over_below (snd (fst x)) (cm_over (snd (fst (fst x)))))
      (bc_obeying (encoder encode (guard_consumer bad C)) ops over s) (bc_obeying (encoder encode C) ops over (fst s)).
  Proof.
    intros encode C Henc ops s over HI.
    apply obeying_kept with (Inv := fun s over => over_below over (cm_over (snd s))) (good := fun _ => True);
      [clear ops s over HI|exact HI|now apply Forall_forall].
    intros o [i m] over HI _ Ho. apply negb_true_iff in Ho. specialize (HI Ho). cbn [snd] in HI.
    destruct o as [x|fin|]; cbn [bc_do encoder c_consume c_close c_consumer c_flush fst].
    - eapply kept_weaken; [|exact (Henc bad _ _ _ C x i m HI)]. intros [[i1 m1] [[]|e]] H H0; [exact (H eq_refl)|discriminate].
    - eapply kept_weaken; [|apply guard_close, HI]. intros [[i1 m1] [[]|e]] _ H; discriminate.
    - eapply kept_weaken; [|apply guard_flush, HI]. intros [[i1 m1] [[]|e]] H; cbn [fst snd] in *; now subst.
  Qed.


  Lemma on_inner_kept : forall M X (g : outcome (S * M * X)) o (s : relative (S * M) RT) (K : S * M * X -> Prop) (Q : relative (S * M) RT * X -> Prop),
    kept unmon K g o -> (forall i r, K (i, r) -> Q (mk_relative i (relative_to s), r)) ->
    kept (forgot rel_forget) Q (on_inner g s) (on_inner o (rel_forget s)).
  Proof.
    intros M X g o s K Q HK HQ. unfold on_inner. eapply kept_bind; [exact HK|]. intros [[i m] r] H. apply kept_ret; [reflexivity|]. now apply HQ.
  Qed.

  Lemma relative_encoder_kept : forall (encode : RT -> encode_fn V) (C : bulk_consumer S byte F E), (forall r, obedient_encode (encode r)) ->
    forall ops s over, over_below over (cm_over (snd (rel_inner s))) ->
    kept (seen rel_forget) (fun x => over_below (snd (fst x)) (cm_over (snd (rel_inner (fst (fst x))))))
      (bc_obeying (relative_encoder encode (guard_consumer bad C)) ops over s) (bc_obeying (relative_encoder encode C) ops over (rel_forget s)).
  Proof.
    intros encode C Henc ops s over HI.
    apply obeying_kept with (Inv := fun s over => over_below over (cm_over (snd (rel_inner s)))) (good := fun _ => True);
      [clear ops s over HI|exact HI|now apply Forall_forall].
    intros o [[i m] r0] over HI _ Ho. apply negb_true_iff in Ho. specialize (HI Ho). cbn [rel_inner snd] in HI.
    destruct o as [x|fin|]; cbn [bc_do relative_encoder c_consume c_close c_consumer c_flush].
    - eapply on_inner_kept; [exact (Henc r0 bad _ _ _ C x i m HI)|]. intros [i1 m1] [[]|e] H H0; [exact (H eq_refl)|discriminate].
    - eapply on_inner_kept; [apply guard_close, HI|]. intros [i1 m1] [[]|e] _ H; discriminate.
    - eapply on_inner_kept; [apply guard_flush, HI|]. intros [i1 m1] [[]|e] H; cbn [fst snd rel_inner] in *; now subst.
  Qed.

  Lemma decoder_produce_kept : forall (decode : decode_fn V O) (P : bulk_producer S byte F E), obedient_decode decode ->
    forall s m, pm_over m = false ->
    kept unmon (fun x => over_below (bp_ends (BPItem (snd x))) (pm_over (snd (fst x))))
      (decoder_produce decode (guard_producer bad P) (s, m)) (decoder_produce decode P s).
  Proof.
    intros decode P Hdec s m Hm. unfold decoder_produce. eapply kept_bind; [apply guard_expose, Hm|].
    intros [[i1 m1] [[xs|f]|e]]; unfold unmon; cbn [fst snd]; intros ->; [|now apply kept_ret..].
    eapply kept_bind; [exact (Hdec bad _ _ _ P i1 (mk_pmon false _) eq_refl)|]. intros [[i2 m2] [t|e]] H; unfold unmon; cbn [fst snd] in *; apply kept_ret; try reflexivity.
    - intros _. exact (H eq_refl).
    - discriminate.
  Qed.

  Lemma decoder_slurp_kept : forall (P : bulk_producer S byte F E) s m, pm_over m = false ->
    kept unmon (fun x => over_below (bp_ends (@BPUnit V F (decode_error F E O) (snd x))) (pm_over (snd (fst x))))
      (decoder_slurp (guard_producer bad P) (s, m)) (decoder_slurp P s).
  Proof.
    intros P s m Hm. unfold decoder_slurp. eapply kept_bind; [apply guard_slurp, Hm|].
    intros [[i1 m1] [[]|e]]; unfold unmon; cbn [fst snd]; intros ->; now apply kept_ret.
  Qed.

  Lemma decoder_kept : forall (decode : decode_fn V O) (P : bulk_producer S byte F E), obedient_decode decode ->
    forall ops s over, over_below over (pm_over (snd s)) ->
    kept (seen fst) (fun x => over_below (snd (fst x)) (pm_over (snd (fst (fst x)))))
      (bp_obeying (decoder decode (guard_producer bad P)) ops over s) (bp_obeying (decoder decode P) ops over (fst s)).
  Proof.
    intros decode P Hdec ops s over HI.
    apply obeying_kept with (Inv := fun s over => over_below over (pm_over (snd s))) (good := fun _ => True);
      [clear ops s over HI|exact HI|now apply Forall_forall].
    intros o [i m] over HI _ Ho. apply negb_true_iff in Ho. specialize (HI Ho). cbn [snd] in HI.
    destruct o; cbn [bp_do decoder p_produce p_producer p_slurp fst].
    - eapply kept_bind; [apply decoder_produce_kept; [exact Hdec|exact HI]|]. intros [[i1 m1] r] H. now apply kept_ret.
    - eapply kept_bind; [apply decoder_slurp_kept, HI|]. intros [[i1 m1] r] H. now apply kept_ret.
  Qed.

  Lemma relative_decoder_kept : forall (decode : RT -> decode_fn V O) (P : bulk_producer S byte F E), (forall r, obedient_decode (decode r)) ->
    forall ops s over, over_below over (pm_over (snd (rel_inner s))) ->
    kept (seen rel_forget) (fun x => over_below (snd (fst x)) (pm_over (snd (rel_inner (fst (fst x))))))
      (bp_obeying (relative_decoder decode (guard_producer bad P)) ops over s) (bp_obeying (relative_decoder decode P) ops over (rel_forget s)).
  Proof.
    intros decode P Hdec ops s over HI.
    apply obeying_kept with (Inv := fun s over => over_below over (pm_over (snd (rel_inner s)))) (good := fun _ => True);
      [clear ops s over HI|exact HI|now apply Forall_forall].
    intros o [[i m] r0] over HI _ Ho. apply negb_true_iff in Ho. specialize (HI Ho). cbn [rel_inner snd] in HI.
    destruct o; cbn [bp_do relative_decoder p_produce p_producer p_slurp].
    - eapply kept_bind with (f := forgot rel_forget) (Q := fun x => over_below (bp_ends (BPItem (snd x))) (pm_over (snd (rel_inner (fst x))))).
      + eapply on_inner_kept; [apply decoder_produce_kept; [apply Hdec|exact HI]|]. intros [i1 m1] r H. exact H.
      + intros [s1 r] H. now apply kept_ret.
    - eapply kept_bind with (f := forgot rel_forget) (Q := fun x => over_below (bp_ends (@BPUnit V F (decode_error F E O) (snd x))) (pm_over (snd (rel_inner (fst x))))).
      + eapply on_inner_kept; [apply decoder_slurp_kept, HI|]. intros [i1 m1] r H. exact H.
      + intros [s1 r] H. now apply kept_ret.
  Qed.
End CodecRules.

(** *** Merge *)
Section MergeRules.
  Variable bad : forall X : Type, outcome X.
  Context {S1 S2 T F E : Type} (P1 : bulk_producer S1 T F E) (P2 : bulk_producer S2 T F E).
  Notation G1 := (guard_producer bad P1).
  Notation G2 := (guard_producer bad P2).

  (** The producers that Merge still holds are not over. *)
  Definition mg_alive (m : merge (S1 * pmon) (S2 * pmon)) : Prop :=
    match produce_future1 m with Some s => pm_over (snd s) = false | None => True end /\
    match produce_future2 m with Some s => pm_over (snd s) = false | None => True end.
  Definition mg_kept (x : merge (S1 * pmon) (S2 * pmon) * polled (res (T + F) E)) : Prop :=
    match snd x with Ready (Ok (inr _)) | Ready (Err _) => True | _ => mg_alive (fst x) end.

  Lemma merge_step_kept : forall c m, mg_alive m -> kept (forgot mg_forget) mg_kept (merge_step G1 G2 c m) (merge_step P1 P2 c (mg_forget m)).
  Proof.
    assert (HL : forall s1 m1 o2, pm_over m1 = false -> mg_alive (mk_merge (Some (s1, m1)) o2) ->
      kept (forgot mg_forget) mg_kept (merge_left G1 (s1, m1) (mk_merge (Some (s1, m1)) o2)) (merge_left P1 s1 (mg_forget (mk_merge (Some (s1, m1)) o2)))).
    { intros s1 m1 o2 Hm [_ H2]. unfold merge_left. eapply kept_bind; [apply guard_produce, Hm|].
      intros [[i k] [[x|f]|e]]; unfold unmon; cbn [fst snd]; intros ->; apply kept_ret; try reflexivity; split; try reflexivity; exact H2. }
    assert (HR : forall s2 m2 o1, pm_over m2 = false -> mg_alive (mk_merge o1 (Some (s2, m2))) ->
      kept (forgot mg_forget) mg_kept (merge_right G2 (s2, m2) (mk_merge o1 (Some (s2, m2)))) (merge_right P2 s2 (mg_forget (mk_merge o1 (Some (s2, m2)))))).
    { intros s2 m2 o1 Hm [H1 _]. unfold merge_right. eapply kept_bind; [apply guard_produce, Hm|].
      intros [[i k] [[x|f]|e]]; unfold unmon; cbn [fst snd]; intros ->; apply kept_ret; try reflexivity; split; try reflexivity; exact H1. }
    intros c [[[s1 m1]|] [[s2 m2]|]] HA; pose proof HA as [H1 H2]; cbn [produce_future1 produce_future2 snd] in H1, H2;
      unfold merge_step; cbn [mg_forget produce_future1 produce_future2 option_map fst].
    - destruct (second_first c), (ready1 c), (ready2 c); try (apply (HL s1 m1 (Some (s2, m2))); assumption);
        try (apply (HR s2 m2 (Some (s1, m1))); assumption); apply kept_ret; try reflexivity; exact HA.
    - destruct (ready1 c); [|apply kept_ret; [reflexivity|exact HA]]. eapply kept_bind; [apply guard_produce, H1|].
      intros [[i k] [[x|f]|e]]; unfold unmon; cbn [fst snd]; intros ->; apply kept_ret; try reflexivity; now split.
    - destruct (ready2 c); [|apply kept_ret; [reflexivity|exact HA]]. eapply kept_bind; [apply guard_produce, H2|].
      intros [[i k] [[x|f]|e]]; unfold unmon; cbn [fst snd]; intros ->; apply kept_ret; try reflexivity; now split.
    - apply kept_panic.
  Qed.

  Lemma merge_produce_kept : forall sched m, mg_alive m ->
    kept (fun x => (mg_forget (fst (fst x)), snd (fst x), snd x))
      (fun x => match snd x with Some (Ok (inr _)) | Some (Err _) => True | _ => mg_alive (fst (fst x)) end)
      (merge_produce G1 G2 sched m) (merge_produce P1 P2 sched (mg_forget m)).
  Proof.
    induction sched as [|c sched IH]; intros m HA; cbn [merge_produce]; [now apply kept_ret|].
    eapply kept_bind; [apply merge_step_kept, HA|]. intros [m1 [| |[[x|f]|e]]] H; cbn [fst snd forgot] in *; try (apply IH; exact H); now apply kept_ret.
  Qed.

  Lemma merge_obeying_kept : forall scheds m over, (over = false -> mg_alive m) ->
    kept (seen mg_forget) (fun x => snd (fst x) = false -> mg_alive (fst (fst x)))
      (merge_obeying G1 G2 scheds over m) (merge_obeying P1 P2 scheds over (mg_forget m)).
  Proof.
    intros scheds m over HI.
    apply obeying_kept with (Inv := fun m over => over = false -> mg_alive m) (good := fun _ => True);
      [clear scheds m over HI|exact HI|now apply Forall_forall].
    intros sched m over HI _ Ho. apply negb_true_iff in Ho. eapply kept_bind; [apply merge_produce_kept, HI, Ho|].
    intros [[m1 rest] [[[x|f]|e]|]] H; cbn [fst snd] in *; apply kept_ret; try reflexivity; try discriminate; now intros _.
  Qed.
End MergeRules.

Lemma kept_respects : forall S S' M A (forget : S' -> S) (over : M -> bool) (inner_over : S' -> bool) Q (g : outcome (S' * M * list A)) o,
  kept (seen forget) Q g o -> (forall s m h, Q (s, m, h) -> over m = false -> inner_over s = false) -> respects forget over inner_over g o.
Proof. intros S S' M A forget over inner_over Q g o [H1 H2] HQ. split; [exact H1|]. intros s m h Hg. apply (HQ s m h). now apply H2. Qed.

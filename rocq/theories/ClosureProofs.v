(** Proofs about adaptors whose closures may panic. *)
From Coq Require Import Bool List Arith Lia.
From Verif Require Import Prelude ListFacts Traits Contracts ContractFacts AdaptorModel CloneModel CloneSpec ClosureModel ClosureSpec.
Import ListNotations.
Set Implicit Arguments.

Section Pipes.
  Context {W T U A F PE CE SP SC : Type} (f : T -> W -> W * option U) (M : machine A U F CE)
    (P : bulk_producer SP T F PE) (RP : SP -> list T -> res F PE -> nat -> Prop) (DP : SP -> Prop) (LP : lawful_producer_core P RP DP)
    (C : bulk_consumer SC U F CE) (RC : SC -> A -> nat -> list U -> Prop) (DC : SC -> A -> Prop) (LC : lawful_consumer_core C M RC DC).

  Lemma map_item_producer_pipes : pipes_mapped f M RP DP RC DC (pipe_u (map_item_produce_u f P) (calm_consume C) (calm_close C)).
  Proof using LP LC.
    intros xs. induction xs as [|x xs IH]; intros fuel sp sc w l k a kc v HP HC Hf; (destruct fuel as [|fuel]; [cbn in Hf; lia|]).
    - cbn [map_feed pipe_u]. unfold map_item_produce_u. destruct (lp_produce_last LP HP) as (sp' & E1 & HD). rewrite E1.
      destruct l as [fin|e]; cbn [bind report_last].
      + destruct (lc_close LC fin HC) as (sc' & E2 & HD2). unfold calm_close. rewrite E2. cbn [bind].
        exists sp', sc'. unfold pipe_end. destruct (m_finish M fin a) as [a' [[]|e]]; cbn [snd fst map_err] in *; auto.
      + exists sp', sc. unfold pipe_end. splits; auto. exact (lc_forget LC HC).
    - cbn [map_feed pipe_u]. unfold map_item_produce_u. destruct (lp_produce LP HP) as (sp' & E1 & HP'). rewrite E1. cbn [bind].
      apply (lp_forget LP) in HP'. destruct (f x w) as [w1 [y|]]; cbn [bind].
      + unfold calm_consume. destruct (lc_consume LC y HC) as (sc' & E2 & HC'). rewrite E2. cbn [bind].
        destruct (m_step M y a) as [a1 [[]|e]]; cbn [snd] in *.
        * destruct (IH fuel sp' sc' w1 l 0 a1 0 [] HP' HC' ltac:(cbn in Hf; lia)) as (sp2 & sc2 & H). exists sp2, sc2.
          destruct (map_feed f M xs a1 w1) as [[[a2 w2] n] [|e|]]; exact H.
        * exists sp', sc'. splits; auto.
      + exists sp', sc. splits; auto. exact (lc_forget LC HC).
  Qed.

  Lemma map_item_consumer_pipes : pipes_mapped f M RP DP RC DC (pipe_u (calm_produce P) (map_item_consume_u f C) (calm_close C)).
  Proof using LP LC.
    intros xs. induction xs as [|x xs IH]; intros fuel sp sc w l k a kc v HP HC Hf; (destruct fuel as [|fuel]; [cbn in Hf; lia|]).
    - cbn [map_feed pipe_u]. unfold calm_produce. destruct (lp_produce_last LP HP) as (sp' & E1 & HD). rewrite E1.
      destruct l as [fin|e]; cbn [bind report_last].
      + destruct (lc_close LC fin HC) as (sc' & E2 & HD2). unfold calm_close. rewrite E2. cbn [bind].
        exists sp', sc'. unfold pipe_end. destruct (m_finish M fin a) as [a' [[]|e]]; cbn [snd fst map_err] in *; auto.
      + exists sp', sc. unfold pipe_end. splits; auto. exact (lc_forget LC HC).
    - cbn [map_feed pipe_u]. unfold calm_produce. destruct (lp_produce LP HP) as (sp' & E1 & HP'). rewrite E1. cbn [bind].
      apply (lp_forget LP) in HP'. unfold map_item_consume_u. destruct (f x w) as [w1 [y|]]; cbn [bind].
      + destruct (lc_consume LC y HC) as (sc' & E2 & HC'). rewrite E2. cbn [bind].
        destruct (m_step M y a) as [a1 [[]|e]]; cbn [snd] in *.
        * destruct (IH fuel sp' sc' w1 l 0 a1 0 [] HP' HC' ltac:(cbn in Hf; lia)) as (sp2 & sc2 & H). exists sp2, sc2.
          destruct (map_feed f M xs a1 w1) as [[[a2 w2] n] [|e|]]; exact H.
        * exists sp', sc'. splits; auto.
      + exists sp', sc. splits; auto. exact (lc_forget LC HC).
  Qed.

  (** Going on after a panic amounts to leaving out the item. *)
  Lemma skip_feed_panicked : forall xs a w a' w' n, map_feed f M xs a w = (a', w', n, Panicked) ->
    n < length xs /\ skip_feed f M xs a w = skip_feed f M (skipn (n + 1) xs) a' w' /\
    panics f xs w = S (panics f (skipn (n + 1) xs) w').
  Proof.
    induction xs as [|x xs IH]; intros a w a' w' n H; cbn [map_feed skip_feed panics] in *; [discriminate|].
    destruct (f x w) as [w1 [y|]].
    - destruct (m_step M y a) as [a1 [[]|e]]; [|discriminate].
      destruct (map_feed f M xs a1 w1) as [[[a2 w2] m] r] eqn:Em. injection H as -> -> <- ->.
      destruct (IH _ _ _ _ _ Em) as (H1 & H2 & H3). cbn [length Nat.add skipn]. splits; auto. lia.
    - injection H as -> -> <-. cbn [Nat.add skipn length]. splits; auto. lia.
  Qed.
  Lemma skip_feed_all : forall xs a w a' w' n, map_feed f M xs a w = (a', w', n, AllTaken) -> skip_feed f M xs a w = (a', w', None).
  Proof.
    induction xs as [|x xs IH]; intros a w a' w' n H; cbn [map_feed skip_feed] in *; [congruence|].
    destruct (f x w) as [w1 [y|]]; [|discriminate]. destruct (m_step M y a) as [a1 [[]|e]]; [|discriminate].
    destruct (map_feed f M xs a1 w1) as [[[a2 w2] m] r] eqn:Em. injection H as -> -> <- ->. exact (IH _ _ _ _ _ Em).
  Qed.
  Lemma skip_feed_refused : forall xs a w a' w' n e, map_feed f M xs a w = (a', w', n, Refused e) ->
    skip_feed f M xs a w = (a', w', Some (e, skipn (n + 1) xs)).
  Proof.
    induction xs as [|x xs IH]; intros a w a' w' n e H; cbn [map_feed skip_feed] in *; [discriminate|].
    destruct (f x w) as [w1 [y|]]; [|discriminate]. destruct (m_step M y a) as [a1 [[]|e1]].
    - destruct (map_feed f M xs a1 w1) as [[[a2 w2] m] r] eqn:Em. injection H as -> -> <- ->. cbn [Nat.add skipn]. exact (IH _ _ _ _ _ _ Em).
    - injection H as -> -> <- ->. reflexivity.
  Qed.
End Pipes.

Section Again.
  Context {W T U V A F PE CE SP SC : Type} (f : T -> W -> W * option U) (M : machine A U F CE)
    (RP : SP -> list T -> res F PE -> nat -> Prop) (DP : SP -> Prop) (RC : SC -> A -> nat -> list U -> Prop) (DC : SC -> A -> Prop)
    (produce : SP -> W -> outcome (SP * W * caught (res (V + F) PE)))
    (consume : V -> SC -> W -> outcome (SC * W * caught (res unit CE)))
    (close : F -> SC -> W -> outcome (SC * W * caught (res unit CE)))
    (HM : pipes_mapped f M RP DP RC DC (pipe_u produce consume close)).

  Lemma pipe_again_skips_them : pipes_skipping f M RP DP RC DC (pipe_again produce consume close).
  Proof using HM.
    intros attempts. induction attempts as [|attempts IH]; intros xs fuel sp sc w l k a kc v HP HC Hf Hp; [lia|]. cbn [pipe_again].
    destruct (@HM xs fuel sp sc w l k a kc v HP HC Hf) as (sp' & sc' & H). destruct (map_feed f M xs a w) as [[[a' w'] n] [|e|]] eqn:Em.
    - destruct H as (E1 & H). rewrite (skip_feed_all f M _ _ _ Em), E1. cbn [bind]. exists sp', sc'. auto.
    - destruct H as (E1 & H). rewrite (skip_feed_refused f M _ _ _ Em), E1. cbn [bind]. exists sp', sc'. auto.
    - destruct H as (E1 & HP' & HC'). destruct (skip_feed_panicked f M _ _ _ Em) as (Hn & Hs & Hq). rewrite Hs, E1. cbn [bind].
      apply (IH (skipn (n + 1) xs) fuel sp' sc' w' l 0 a' 0 [] HP' HC'); [rewrite skipn_length; lia|lia].
  Qed.
End Again.

Lemma panics_bound : forall W T U (f : T -> W -> W * option U) xs w, panics f xs w <= length xs.
Proof.
  intros W T U f. induction xs as [|x xs IH]; intros w; cbn [panics length]; [lia|].
  destruct (f x w) as [w1 [y|]]; specialize (IH w1); lia.
Qed.

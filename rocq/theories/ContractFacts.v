(** Consequences of the contracts that do not depend on any implementation. *)
From Coq Require Import Bool List Arith Lia.
From Verif Require Import Prelude ListFacts Traits Contracts.
Import ListNotations.
Set Implicit Arguments.

(** ** Feeding a machine *)
Section Feed.
  Context {A T F E : Type} (M : machine A T F E).

  Lemma m_feed_count : forall xs a a' n e, m_feed M xs a = (a', n, e) ->
    n <= length xs /\ (e = None -> n = length xs) /\ (e <> None -> n < length xs).
  Proof.
    induction xs as [|x xs IH]; cbn; intros a a' n e H.
    - injection H as <- <- <-. splits; auto. congruence.
    - destruct (m_step M x a) as [a1 [u|e1]] eqn:E1.
      + destruct (m_feed M xs a1) as [[a2 m] e2] eqn:E2. injection H as <- <- <-.
        specialize (IH _ _ _ _ E2) as (H1 & H2 & H3). splits; [lia| |].
        * intros H. rewrite H2; auto.
        * intros H. specialize (H3 H). lia.
      + injection H as <- <- <-. splits; [lia|discriminate|lia].
  Qed.

  Lemma m_feed_app : forall xs ys a,
    m_feed M (xs ++ ys) a =
      match m_feed M xs a with
      | (a', n, None) => match m_feed M ys a' with (a'', m, e) => (a'', n + m, e) end
      | (a', n, Some e) => (a', n, Some e)
      end.
  Proof.
    induction xs as [|x xs IH]; cbn; intros ys a.
    - destruct (m_feed M ys a) as [[? ?] ?]; reflexivity.
    - destruct (m_step M x a) as [a1 [u|e1]]; [|reflexivity].
      rewrite IH. destruct (m_feed M xs a1) as [[a2 n] [e|]]; [reflexivity|].
      destruct (m_feed M ys a2) as [[? ?] ?]; reflexivity.
  Qed.

  (** An error on a prefix is the error on the whole. *)
  Lemma m_feed_prefix_err : forall n xs a a' m e,
    m_feed M (firstn n xs) a = (a', m, Some e) -> m_feed M xs a = (a', m, Some e).
  Proof. intros n xs a a' m e H. rewrite <- (firstn_skipn n xs), m_feed_app, H. reflexivity. Qed.

  Lemma m_feed_prefix_ok : forall n xs a a' m,
    n <= length xs -> m_feed M (firstn n xs) a = (a', m, None) ->
    m_feed M xs a = match m_feed M (skipn n xs) a' with (a'', p, e) => (a'', n + p, e) end.
  Proof.
    intros n xs a a' m Hn H. rewrite <- (firstn_skipn n xs) at 1. rewrite m_feed_app, H.
    apply m_feed_count in H as (_ & H & _). rewrite (H eq_refl), firstn_length, Nat.min_l by lia.
    reflexivity.
  Qed.

  Lemma m_feed_stop : forall xs a a' n e, m_feed M xs a = (a', n, Some e) ->
    exists a1 x ys, xs = firstn n xs ++ x :: ys /\ m_feed M (firstn n xs) a = (a1, n, None) /\
      m_step M x a1 = (a', Err e).
  Proof.
    induction xs as [|x xs IH]; cbn; intros a a' n e H; [discriminate|].
    destruct (m_step M x a) as [a1 [u|e1]] eqn:E1.
    - destruct (m_feed M xs a1) as [[a2 m] e2] eqn:E2. injection H as <- <- ->.
      destruct (IH _ _ _ _ E2) as (a3 & y & ys & H1 & H2 & H3).
      exists a3, y, ys. splits; [cbn; congruence| |auto].
      cbn. rewrite E1, H2. reflexivity.
    - injection H as <- <- <-. exists a, x, xs. splits; auto.
  Qed.
End Feed.
Arguments m_feed_count {A T F E M xs a a' n e} _.
Arguments m_feed_prefix_err {A T F E M} n {xs a a' m e} _.
Arguments m_feed_prefix_ok {A T F E M} n {xs a a' m} _ _.
Arguments m_feed_stop {A T F E M xs a a' n e} _.

(** ** Producers *)
Section Producer.
  Context {S T F E : Type} {P : bulk_producer S T F E}
    {R : S -> list T -> res F E -> nat -> Prop} {D : S -> Prop}.

  Lemma p_permitted_dec : forall (a : pabs T F E) o, p_permitted a o \/ ~ p_permitted a o.
  Proof.
    intros [xs l k|] o; destruct o; cbn; auto.
    - destruct (le_dec 1 k), (le_dec n k); tauto.
    - destruct buf; [right|left]; congruence.
  Qed.

  (** The default [bulk_produce] is lawful. *)
  Lemma default_bulk_produce_lawful :
    lawful_producer_core P R D ->
    p_bulk_produce P = default_bulk_produce (p_expose P) (p_consider P) ->
    lawful_bulk_produce P R D.
  Proof.
    intros L HB s xs l k buf HR Hbuf. rewrite HB. unfold default_bulk_produce.
    destruct xs as [|x xs].
    - destruct (lp_expose_last L HR) as (s' & E1 & HD). rewrite E1. cbn.
      exists s'. destruct l; cbn; auto.
    - destruct (lp_expose L HR) as (s1 & ys & rest & E1 & Hys & Hxs & HR1); [discriminate|].
      rewrite E1. cbn [bind].
      assert (Hly : 1 <= length ys) by (destruct ys; [congruence|cbn; lia]).
      assert (Hlb : 1 <= length buf) by (destruct buf; [congruence|cbn; lia]).
      assert (Hlx : length ys <= length (x :: xs)) by (rewrite Hxs, app_length; lia).
      remember (Nat.min (length ys) (length buf)) as n eqn:Hn.
      destruct (lp_consider L n HR1) as (s2 & E2 & HR2); [auto|lia|].
      rewrite E2. cbn [bind].
      exists s2, n. splits; try lia.
      + do 3 f_equal. rewrite Hxs, firstn_app. replace (n - length ys) with 0 by lia.
        cbn. now rewrite app_nil_r.
      + exact (lp_forget L HR2).
  Qed.

  Lemma default_lawful_producer :
    lawful_producer_core P R D ->
    p_bulk_produce P = default_bulk_produce (p_expose P) (p_consider P) ->
    lawful_producer P R D.
  Proof. intros L HB. constructor; [exact L|]. now apply default_bulk_produce_lawful. Qed.

  (** One permitted call. *)
  Lemma lawful_p_step : forall o s a,
    lawful_producer P R D -> (lawful_slurp P R D \/ o <> PSlurp) ->
    p_rel R D s a -> p_permitted a o ->
    exists s' r a', p_do P o s = Ret (s', r) /\ p_answer a o r a' /\ p_rel R D s' a'.
  Proof.
    intros o s [xs l k|] L LS HR HP; [|destruct HP]. cbn in HR.
    destruct o; cbn [p_do p_permitted] in *.
    - destruct xs as [|x xs].
      + destruct (lp_produce_last L HR) as (s' & E1 & HD). rewrite E1. cbn [bind].
        do 3 eexists; splits; [reflexivity|cbn; splits; reflexivity|exact HD].
      + destruct (lp_produce L HR) as (s' & E1 & HD). rewrite E1. cbn [bind].
        do 3 eexists; splits; [reflexivity|cbn; splits; reflexivity|exact HD].
    - destruct LS as [LS|]; [|congruence].
      destruct (LS _ _ _ _ HR) as [(s' & E1 & HR')|(s' & e & E1 & -> & -> & HR')]; rewrite E1; cbn [bind].
      + do 3 eexists; splits; [reflexivity|cbn; left; splits; reflexivity|exact HR'].
      + do 3 eexists; splits; [reflexivity|cbn; right; exists e; splits; reflexivity|exact HR'].
    - destruct xs as [|x xs].
      + destruct (lp_expose_last L HR) as (s' & E1 & HD). rewrite E1. cbn [bind].
        do 3 eexists; splits; [reflexivity|cbn; splits; reflexivity|exact HD].
      + destruct (lp_expose L HR) as (s' & ys & rest & E1 & Hne & Hxs & HR'); [congruence|].
        rewrite E1. cbn [bind].
        do 3 eexists; splits; [reflexivity|cbn|].
        * exists ys, rest. splits; auto.
        * exact HR'.
    - destruct HP as [H1 H2]. destruct (lp_consider L n HR H1 H2) as (s' & E1 & HR').
      rewrite E1. cbn [bind].
      do 3 eexists; splits; [reflexivity|cbn; splits; reflexivity|exact HR'].
    - pose proof (lp_bulk L buf HR HP) as HB. destruct xs as [|x xs].
      + destruct HB as (s' & E1 & HD). rewrite E1. cbn [bind].
        do 3 eexists; splits; [reflexivity|cbn; splits; reflexivity|exact HD].
      + destruct HB as (s' & n & E1 & Hn & Hx & HR'). rewrite E1. cbn [bind].
        eexists s', _, (PActive (skipn n (x :: xs)) l 0); splits; [reflexivity|cbn [p_answer]|exact HR'].
        exists n. splits; auto; lia.
  Qed.

  Lemma lawful_p_conforms : forall ops s a,
    lawful_producer P R D -> (lawful_slurp P R D \/ ~ In PSlurp ops) ->
    p_rel R D s a -> p_conforms P ops s a.
  Proof.
    induction ops as [|o ops IH]; intros s a L LS HR; [constructor|].
    destruct (p_permitted_dec a o) as [HP|HP]; [|now constructor].
    destruct (@lawful_p_step o s a L) as (s' & r & a' & E1 & HA & HR'); auto.
    { destruct LS as [LS|LS]; [auto|right]. intros ->. apply LS. now left. }
    eapply p_conforms_step; eauto. apply IH; auto.
    destruct LS as [LS|LS]; [auto|right]. intros H. apply LS. now right.
  Qed.

  Lemma p_answer_det : forall (a : pabs T F E) o r a1 a2,
    p_answer a o r a1 -> p_answer a o r a2 -> a1 = a2.
  Proof.
    intros [xs l k|] o r a1 a2 H1 H2; [|destruct H1].
    destruct o; destruct r; cbn in H1, H2; try contradiction; destruct xs;
      repeat match goal with
      | H : _ /\ _ |- _ => destruct H
      | H : exists _, _ |- _ => destruct H
      | H : _ \/ _ |- _ => destruct H
      end; congruence.
  Qed.

  Lemma lawful_p_history : forall s a h s' a',
    lawful_producer P R D -> (lawful_slurp P R D \/ ~ In PSlurp (map fst h)) ->
    p_rel R D s a -> p_history P s a h s' a' -> p_rel R D s' a'.
  Proof.
    intros s a h s' a' L LS HR HH. induction HH as [|s a o s1 r a1 h s2 a2 HP HD HA HH IH]; [exact HR|].
    destruct (@lawful_p_step o s a L) as (s' & r' & a' & E1 & HA' & HR'); auto.
    { destruct LS as [LS|LS]; [auto|right]. intros ->. apply LS. now left. }
    apply IH.
    - destruct LS as [LS|LS]; [auto|right]. intros H. apply LS. now right.
    - rewrite HD in E1. injection E1 as <- <-. now rewrite (p_answer_det _ _ _ _ _ HA HA').
  Qed.
End Producer.
Arguments default_lawful_producer {S T F E P R D} _ _.
Arguments lawful_p_conforms {S T F E P R D} ops {s a} _ _ _.
Arguments lawful_p_history {S T F E P R D s a h s' a'} _ _ _ _.

(** What a conforming history emits: nothing lost, nothing duplicated, in order; the
    last value is reported once, and only after all items. *)
Lemma p_history_emits : forall S T F E (P : bulk_producer S T F E) s xs l k h s' a',
  k <= length xs ->
  p_history P s (PActive xs l k) h s' a' ->
  match a' with
  | PActive ys l' k' => p_emitted (firstn k xs) h ++ ys = xs /\ l' = l /\ p_last h = None /\ k' <= length ys
  | PEnded => p_emitted (firstn k xs) h = xs /\ p_last h = Some l
  end.
Proof.
  intros S T F E P s xs l k h s' a' Hk HH.
  remember (PActive xs l k) as a eqn:Ha. revert xs l k Ha Hk.
  induction HH as [s a|s a o s1 r a1 h s2 a2 HP HD HA HH IH]; intros xs l k -> Hk.
  - cbn. splits; auto.
  - assert (Hend : forall b, a1 = PEnded -> a2 = PEnded /\ h = [] \/ b = 0).
    { intros b ->. inversion HH; subst; auto. destruct H. }
    destruct o; destruct r; cbn [p_answer] in HA; try contradiction.
    + destruct xs as [|x xs]; destruct HA as [-> ->].
      * destruct (Hend 1 eq_refl) as [[-> ->]|]; [|discriminate].
        destruct l; cbn; auto.
      * specialize (IH xs l (k - 1) eq_refl). cbn in Hk.
        assert (Hs : skipn 1 (firstn k (x :: xs)) = firstn (k - 1) xs).
        { destruct k; cbn; [|now rewrite Nat.sub_0_r]. reflexivity. }
        cbn [p_emitted p_last]. rewrite Hs. specialize (IH ltac:(lia)).
        destruct a2; [destruct IH as (I1 & I2 & I3 & I4)|destruct IH as (I1 & I2)]; splits; auto; cbn; congruence.
    + destruct HA as [[-> ->]|(e & -> & -> & -> & ->)].
      * specialize (IH xs l k eq_refl Hk). cbn. exact IH.
      * destruct (Hend 1 eq_refl) as [[-> ->]|]; [|discriminate]. cbn. auto.
    + destruct xs as [|x xs].
      * destruct HA as [-> ->]. destruct (Hend 1 eq_refl) as [[-> ->]|]; [|discriminate].
        destruct l; cbn; auto.
      * destruct HA as (ys & rest & Hne & Hxs & -> & ->). cbn [p_emitted p_last].
        specialize (IH _ _ _ eq_refl).
        assert (Hf : firstn (length ys) (x :: xs) = ys) by (rewrite Hxs, firstn_app, firstn_all, Nat.sub_diag, app_nil_r; reflexivity).
        rewrite Hf in IH. apply IH. rewrite Hxs, app_length. lia.
    + destruct HA as [-> ->]. destruct HP as [HP1 HP2]. cbn [p_emitted p_last].
      specialize (IH _ _ _ eq_refl). rewrite skipn_length in IH. specialize (IH ltac:(lia)).
      rewrite firstn_skipn_comm in IH. replace (n + (k - n)) with k in IH by lia.
      rewrite firstn_firstn, Nat.min_l by lia.
      destruct a2 as [ys l' k'|]; [destruct IH as (I1 & I2 & I3 & I4)|destruct IH as (I1 & I2)]; splits; auto.
      * rewrite <- app_assoc, I1. apply firstn_skipn.
      * rewrite I1. apply firstn_skipn.
    + destruct xs as [|x xs].
      * destruct HA as (-> & -> & ->). destruct (Hend 1 eq_refl) as [[-> ->]|]; [|discriminate].
        destruct l; cbn; auto.
      * destruct HA as (n & Hn & Hnx & -> & -> & ->). cbn [p_emitted p_last].
        specialize (IH _ _ _ eq_refl ltac:(lia)). cbn [firstn] in IH.
        rewrite firstn_app, firstn_firstn, Nat.min_id, firstn_length, Nat.min_l by lia.
        replace (n - n) with 0 by lia. cbn [firstn]. rewrite app_nil_r.
        destruct a2 as [ys l' k'|]; [destruct IH as (I1 & I2 & I3 & I4)|destruct IH as (I1 & I2)]; splits; auto.
        -- rewrite <- app_assoc, I1. apply firstn_skipn.
        -- rewrite I1. apply firstn_skipn.
Qed.

(** ** Consumers *)
Section Consumer.
  Context {S A T F E : Type} {C : bulk_consumer S T F E} {M : machine A T F E}
    {R : S -> A -> nat -> list T -> Prop} {D : S -> A -> Prop}.

  Lemma c_permitted_dec : forall (a : cabs A T) (o : cop T F), c_permitted a o \/ ~ c_permitted a o.
  Proof.
    intros [a k w|a] o; destruct o; cbn; auto.
    - destruct (le_dec (length ys) k); tauto.
    - destruct (le_dec 1 k), (le_dec n (length w)); tauto.
    - destruct buf; [right|left]; congruence.
  Qed.

  (** The default [bulk_consume] is lawful. *)
  Lemma default_bulk_consume_lawful :
    lawful_consumer_core C M R D ->
    c_bulk_consume C = default_bulk_consume (c_expose C) (c_write C) (c_consume_slots C) ->
    lawful_bulk_consume C M R D.
  Proof.
    intros L HB s a k w buf HR Hbuf. rewrite HB. unfold default_bulk_consume.
    assert (Hlb : 1 <= length buf) by (destruct buf; [congruence|cbn; lia]).
    destruct (lc_expose L HR) as [(s1 & n & E1 & Hn & HR1)|(s1 & e & a1 & E1 & Hall & HD)].
    - rewrite E1. cbn [bind].
      remember (Nat.min n (length buf)) as m eqn:Hm.
      assert (Hlen : length (firstn m buf) = m) by (rewrite firstn_length; lia).
      pose proof (lc_write L (firstn m buf) HR1 ltac:(lia)) as HR2.
      rewrite overlay_nil in HR2.
      pose proof (lc_consume_slots L m HR2 Hn ltac:(lia)) as HC.
      rewrite firstn_firstn, Nat.min_id in HC.
      destruct (m_feed M (firstn m buf) a) as [[a2 p] [e|]] eqn:HF.
      + destruct HC as (s2 & E2 & HD). rewrite E2. cbn [bind].
        right. exists s2, p, e, a2. splits; auto. now apply (m_feed_prefix_err m).
      + destruct HC as (s2 & E2 & HR3). rewrite E2. cbn [bind].
        left. exists s2, m, a2. splits; auto; try lia.
        * apply m_feed_count in HF as HF'. destruct HF' as (_ & HF' & _).
          now rewrite HF, (HF' eq_refl), Hlen.
        * exact (lc_forget L HR3).
    - right. rewrite E1. cbn [bind]. exists s1, 0, e, a1. splits; auto.
      destruct buf as [|x buf]; [congruence|]. cbn. now rewrite Hall.
  Qed.

  Lemma default_lawful_consumer :
    lawful_consumer_core C M R D ->
    c_bulk_consume C = default_bulk_consume (c_expose C) (c_write C) (c_consume_slots C) ->
    lawful_consumer C M R D.
  Proof. intros L HB. constructor; [exact L|]. now apply default_bulk_consume_lawful. Qed.

  Lemma lawful_c_step : forall o s a,
    lawful_consumer C M R D -> c_rel R D s a -> c_permitted a o ->
    exists s' r a', c_do C o s = Ret (s', r) /\ c_answer M a o r a' /\ c_rel R D s' a'.
  Proof.
    intros o s [a k w|a] L HR HP; [|destruct HP]. cbn in HR.
    destruct o; cbn [c_do c_permitted] in *.
    - destruct (lc_consume L x HR) as (s' & E1 & HR'). rewrite E1. cbn [bind].
      eexists s', _, _; splits; [reflexivity|cbn; splits; reflexivity|].
      destruct (m_step M x a) as [a1 [|]]; exact HR'.
    - destruct (lc_close L f HR) as (s' & E1 & HR'). rewrite E1. cbn [bind].
      do 3 eexists; splits; [reflexivity|cbn; splits; reflexivity|exact HR'].
    - destruct (lc_flush L HR) as (s' & E1 & HR'). rewrite E1. cbn [bind].
      do 3 eexists; splits; [reflexivity|cbn; splits; reflexivity|].
      destruct (m_flush M a) as [a1 [|]]; exact HR'.
    - destruct (lc_expose L HR) as [(s1 & n & E1 & Hn & HR1)|(s1 & e & a1 & E1 & Hall & HD)];
        rewrite E1; cbn [bind].
      + eexists s1, _, (CActive a n []); splits; [reflexivity|cbn; left; exists n; splits; auto|exact HR1].
      + eexists s1, _, (CEnded a1); splits; [reflexivity|cbn; right; exists e, a1; splits; auto|exact HD].
    - do 3 eexists; splits; [reflexivity|cbn; reflexivity|]. exact (lc_write L ys HR HP).
    - destruct HP as [H1 H2]. pose proof (lc_consume_slots L n HR H1 H2) as HC.
      cbn [c_answer]. destruct (m_feed M (firstn n w) a) as [[a2 p] [e|]] eqn:HF;
        destruct HC as (s2 & E2 & HC); rewrite E2; cbn [bind].
      + eexists s2, _, (CEnded a2). splits; [reflexivity|cbn; splits; reflexivity|exact HC].
      + eexists s2, _, (CActive a2 (k - n) (skipn n w)). splits; [reflexivity|cbn; splits; reflexivity|exact HC].
    - destruct (lc_bulk L buf HR HP) as [(s1 & n & a1 & E1 & Hn & HF & HR1)|(s1 & n & e & a1 & E1 & HF & HD)];
        rewrite E1; cbn [bind].
      + eexists s1, _, (CActive a1 0 []); splits; [reflexivity| |exact HR1]. cbn. left. exists n, a1. splits; auto; lia.
      + eexists s1, _, (CEnded a1); splits; [reflexivity| |exact HD]. cbn. right. exists n, e, a1. splits; auto.
  Qed.

  Lemma lawful_c_conforms : forall ops s a,
    lawful_consumer C M R D -> c_rel R D s a -> c_conforms C M ops s a.
  Proof.
    induction ops as [|o ops IH]; intros s a L HR; [constructor|].
    destruct (c_permitted_dec a o) as [HP|HP]; [|now constructor].
    destruct (@lawful_c_step o s a L) as (s' & r & a' & E1 & HA & HR'); auto.
    eapply c_conforms_step; eauto.
  Qed.

  Lemma c_answer_det : forall (x0 : T) (a : cabs A T) o r a1 a2,
    c_answer M a o r a1 -> c_answer M a o r a2 -> a1 = a2.
  Proof.
    intros x0 [a k w|a] o r a1 a2 H1 H2; [|destruct H1].
    destruct o; destruct r; cbn in H1, H2; try contradiction.
    - destruct H1, H2; congruence.
    - destruct H1, H2; congruence.
    - destruct H1, H2; congruence.
    - destruct H1 as [(n & ? & ? & ?)|(e & b & Hb & ? & ?)], H2 as [(n' & ? & ? & ?)|(e' & b' & Hb' & ? & ?)]; try congruence.
      specialize (Hb x0). specialize (Hb' x0). congruence.
    - congruence.
    - destruct (m_feed M (firstn n w) a) as [[? ?] [|]]; destruct H1, H2; congruence.
    - destruct H1 as [(n & b & ? & ? & ? & ?)|(n & e & b & Hb & ? & ?)], H2 as [(n' & b' & ? & ? & ? & ?)|(n' & e' & b' & Hb' & ? & ?)]; try congruence.
  Qed.

  Lemma lawful_c_history : forall (x0 : T) s a h s' a',
    lawful_consumer C M R D -> c_rel R D s a -> c_history C M s a h s' a' -> c_rel R D s' a'.
  Proof.
    intros x0 s a h s' a' L HR HH. induction HH as [|s a o s1 r a1 h s2 a2 HP HD HA HH IH]; [exact HR|].
    apply IH. clear IH HH.
    destruct (@lawful_c_step o s a L) as (s' & r' & a' & E1 & HA' & HR'); auto.
    rewrite HD in E1. injection E1 as <- <-. now rewrite (c_answer_det x0 _ _ _ _ _ HA HA').
  Qed.
End Consumer.
Arguments default_lawful_consumer {S A T F E C M R D} _ _.
Arguments lawful_c_conforms {S A T F E C M R D} ops {s a} _ _.
Arguments lawful_c_history {S A T F E C M R D} x0 {s a h s' a'} _ _ _.

(** What a conforming history feeds into the machine, provided that flushing does not
    change the machine state. *)
Definition passive {A T F E} (M : machine A T F E) : Prop :=
  forall a a', m_flush M a = (a', Ok tt) -> a' = a.

Lemma c_history_feeds : forall S A T F E (C : bulk_consumer S T F E) (M : machine A T F E) s a k w h s' a' k' w',
  passive M ->
  c_history C M s (CActive a k w) h s' (CActive a' k' w') ->
  m_feed M (c_consumed w h) a = (a', length (c_consumed w h), None).
Proof.
  intros S A T F E C M s a k w h s' a' k' w' HM HH.
  remember (CActive a k w) as c eqn:Hc. remember (CActive a' k' w') as c' eqn:Hc'.
  revert a k w Hc a' k' w' Hc'.
  induction HH as [s c|s c o s1 r c1 h s2 c2 HP HD HA HH IH]; intros a k w -> a' k' w' Hc'.
  - injection Hc' as <- <- <-. reflexivity.
  - assert (Hend : forall b, c1 <> CEnded b).
    { intros b ->. inversion HH; subst; [discriminate|]. destruct H. }
    destruct o; destruct r; cbn [c_answer] in HA; try contradiction.
    + destruct HA as [-> ->]. cbn in Hend |- *. destruct (m_step M x a) as [a1 [[]|e]] eqn:E1; [|destruct (Hend _ eq_refl)].
      cbn. rewrite E1. rewrite (IH _ _ _ eq_refl _ _ _ Hc'). reflexivity.
    + destruct HA as [-> ->]. destruct (Hend _ eq_refl).
    + destruct HA as [-> ->]. cbn in Hend |- *. destruct (m_flush M a) as [a1 [[]|e]] eqn:E1; [|destruct (Hend _ eq_refl)].
      cbn. apply HM in E1 as ->. exact (IH _ _ _ eq_refl _ _ _ Hc').
    + destruct HA as [(n & Hn & -> & ->)|(e & a1 & _ & -> & ->)]; [|destruct (Hend _ eq_refl)].
      exact (IH _ _ _ eq_refl _ _ _ Hc').
    + subst c1. exact (IH _ _ _ eq_refl _ _ _ Hc').
    + destruct (m_feed M (firstn n w) a) as [[a1 p] [e|]] eqn:E1; destruct HA as [-> ->]; [destruct (Hend _ eq_refl)|].
      cbn [c_consumed]. rewrite m_feed_app, E1, (IH _ _ _ eq_refl _ _ _ Hc').
      apply m_feed_count in E1 as (_ & E1 & _). rewrite (E1 eq_refl), app_length. reflexivity.
    + destruct HA as [(n & a1 & Hn & E1 & -> & ->)|(n & e & a1 & E1 & -> & ->)]; [|destruct (Hend _ eq_refl)].
      cbn [c_consumed]. rewrite m_feed_app, E1, (IH _ _ _ eq_refl _ _ _ Hc').
      rewrite app_length, firstn_length, Nat.min_l by lia. reflexivity.
Qed.

(** ** Checking concrete histories *)
Ltac permitted := first [exact I | discriminate | cbn; repeat split; repeat constructor; lia | cbn; lia].
Ltac answered := cbn; first
  [ reflexivity
  | split; reflexivity
  | left; split; reflexivity
  | right; eexists; repeat split; reflexivity
  | left; eexists; split; [|split; reflexivity]; lia
  | right; do 2 eexists; split; [intros; reflexivity|split; reflexivity]
  | do 2 eexists; split; [|split; [|split; reflexivity]]; [discriminate|reflexivity]
  | eexists; split; [|split; [|split; [|split]]]; [| |reflexivity|reflexivity|reflexivity]; cbn; lia
  | repeat split; reflexivity
  | left; do 2 eexists; split; [|split; [|split; reflexivity]]; [|reflexivity]; cbn; lia
  | right; do 3 eexists; split; [|split; reflexivity]; reflexivity ].
Ltac compute_call := match goal with |- ?x = _ => let v := eval vm_compute in x in transitivity v; [vm_compute; reflexivity|reflexivity] end.
Ltac run_p := repeat (eapply p_history_step; [permitted|compute_call|answered|]); apply p_history_nil.
Ltac run_c := repeat (eapply c_history_step; [permitted|compute_call|answered|]); apply c_history_nil.

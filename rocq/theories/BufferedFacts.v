(** What the contract of buffering consumers implies for whole histories. *)
From Coq Require Import Bool List Arith Lia.
From Verif Require Import Prelude ListFacts Traits Contracts ContractFacts AdaptorSpec BufferedSpec.
Import ListNotations.
Set Implicit Arguments.

Section Facts.
  Context {A T F E : Type} (M : machine A T F E).

  Lemma ev_items_app : forall (l1 l2 : list (cev T)), ev_items (l1 ++ l2) = ev_items l1 ++ ev_items l2.
  Proof. intros. apply flat_map_app. Qed.

  Lemma m_run_app : forall l1 l2 a, m_run M (l1 ++ l2) a =
    match m_run M l1 a with Some a1 => m_run M l2 a1 | None => None end.
  Proof.
    induction l1 as [|ev l1 IH]; intros l2 a; cbn; [reflexivity|].
    destruct (m_ev M ev a) as [a1 [|]]; auto.
  Qed.

  Lemma m_forwards_nil : forall a, m_forwards M a [] a.
  Proof. intros a. exists []. auto. Qed.

  Lemma m_forwards_trans : forall a xs a1 ys a2,
    m_forwards M a xs a1 -> m_forwards M a1 ys a2 -> m_forwards M a (xs ++ ys) a2.
  Proof.
    intros a xs a1 ys a2 (l1 & <- & H1) (l2 & <- & H2). exists (l1 ++ l2).
    rewrite ev_items_app, m_run_app, H1. auto.
  Qed.

  Lemma m_forwards_refuses : forall a xs a1 ys e a2,
    m_forwards M a xs a1 -> m_refuses M a1 ys e a2 -> m_refuses M a (xs ++ ys) e a2.
  Proof.
    intros a xs a1 ys e a2 (l1 & <- & H1) (l2 & ev & a' & rest & -> & Hne & H2 & H3).
    exists (l1 ++ l2), ev, a', rest. rewrite ev_items_app, m_run_app, H1, app_assoc. auto.
  Qed.

  Lemma m_refuses_more : forall a xs e a1 ys, m_refuses M a xs e a1 -> m_refuses M a (xs ++ ys) e a1.
  Proof.
    intros a xs e a1 ys (evs & ev & a2 & rest & -> & Hne & H1 & H2).
    exists evs, ev, a2, (rest ++ ys). rewrite !app_assoc. splits; auto.
    intros H. apply app_eq_nil in H as [H _]. contradiction.
  Qed.

  Lemma m_feed_forwards : forall xs a a' n, m_feed M xs a = (a', n, None) -> m_forwards M a xs a'.
  Proof.
    intros xs. unfold m_forwards. induction xs as [|x xs IH]; cbn; intros a a' n H.
    - injection H as <- <-. exists []. auto.
    - destruct (m_step M x a) as [a1 [u|]] eqn:E1; [|discriminate].
      destruct (m_feed M xs a1) as [[a2 m] e] eqn:E2. injection H as <- <- ->.
      destruct (IH _ _ _ E2) as (evs & <- & H). exists (EvItem x :: evs). cbn. rewrite E1. auto.
  Qed.

  Lemma m_feed_refuses : forall xs a a' n e, m_feed M xs a = (a', n, Some e) -> m_refuses M a xs e a'.
  Proof.
    intros xs. induction xs as [|x xs IH]; cbn; intros a a' n e H; [discriminate|].
    destruct (m_step M x a) as [a1 [u|e1]] eqn:E1.
    - destruct (m_feed M xs a1) as [[a2 m] e2] eqn:E2. injection H as <- <- ->.
      destruct (IH _ _ _ _ E2) as (evs & ev & a3 & rest & -> & Hne & H & H').
      exists (EvItem x :: evs), ev, a3, rest. cbn. rewrite E1. auto.
    - injection H as <- <- <-. exists [], (EvItem x), a, xs. cbn. splits; auto. discriminate.
  Qed.

  Lemma m_flush_forwards : forall a a', m_flush M a = (a', Ok tt) -> m_forwards M a [] a'.
  Proof. intros a a' H. exists [EvFlush]. cbn. rewrite H. auto. Qed.

  (** If flushing keeps the machine's state, forwarding is feeding. *)
  Lemma m_forwards_feed : passive M -> forall xs a a', m_forwards M a xs a' ->
    m_feed M xs a = (a', length xs, None).
  Proof.
    intros HP xs a a' (evs & <- & H). revert a H. induction evs as [|ev evs IH]; intros a H.
    - injection H as <-. reflexivity.
    - cbn in H. destruct (m_ev M ev a) as [a1 [u|e]] eqn:E1; [|discriminate]. specialize (IH _ H).
      destruct ev as [x|].
      + change (ev_items (EvItem x :: evs)) with (x :: ev_items evs). cbn in E1 |- *.
        rewrite E1, IH. reflexivity.
      + cbn in E1. destruct u. apply HP in E1. subst a1. exact IH.
  Qed.

  Lemma b_run_active : forall cap a pend k w h a' pend' k' w',
    length pend <= cap ->
    b_run M cap (BActive a pend k w) h (BActive a' pend' k' w') ->
    exists out, out ++ pend' = pend ++ c_consumed w h /\ length pend' <= cap /\ m_forwards M a out a'.
  Proof.
    intros cap a pend k w h a' pend' k' w' Hp HH.
    remember (BActive a pend k w) as b eqn:Hb. remember (BActive a' pend' k' w') as b' eqn:Hb'.
    revert a pend k w Hb Hp. induction HH as [b|b o r b1 h b2 HP HA HH IH]; intros a pend k w -> Hp.
    - injection Hb' as <- <- <- <-. exists []. cbn. rewrite app_nil_r. splits; auto. apply m_forwards_nil.
    - subst b2. assert (Hend : forall a1, b1 = BEnded a1 -> False).
      { intros a1 ->. inversion HH; subst. contradiction. }
      specialize (IH eq_refl).
      assert (Hgo : forall out1 pend1 new k1 w1 a1, out1 ++ pend1 = pend ++ new -> length pend1 <= cap ->
        m_forwards M a out1 a1 -> b1 = BActive a1 pend1 k1 w1 ->
        exists out, out ++ pend' = pend ++ new ++ c_consumed w1 h /\ length pend' <= cap /\ m_forwards M a out a').
      { intros out1 pend1 new k1 w1 a1 H1 H2 H3 ->. destruct (IH _ _ _ _ eq_refl H2) as (out & H4 & H5 & H6).
        exists (out1 ++ out). splits; auto.
        - rewrite <- app_assoc, H4, app_assoc, H1, <- app_assoc. reflexivity.
        - eapply m_forwards_trans; eauto. }
      cbn [b_answer] in HA. cbv zeta in HA.
      destruct o; destruct r as [[u|e]|[n1|e]|[n1|e]|]; try contradiction;
        repeat match goal with
        | H : _ /\ _ |- _ => destruct H
        | H : exists _, _ |- _ => destruct H
        | H : _ \/ _ |- _ => destruct H
        end; try (exfalso; eapply Hend; eassumption); cbn [c_consumed].
      + eapply (Hgo _ _ [x]); eassumption.
      + eapply (Hgo pend [] []); [now rewrite app_nil_r|cbn; lia| |eassumption].
        rewrite <- (app_nil_r pend). eapply m_forwards_trans; [eassumption|]. now apply m_flush_forwards.
      + match goal with H : b1 = BActive ?a1 ?p1 ?k1 ?w1, H' : ?o1 ++ ?p1 = pend |- _ =>
          apply (Hgo o1 p1 [] k1 w1 a1); [now rewrite (app_nil_r pend)|lia|auto|auto] end.
      + eapply (Hgo [] pend []); [now rewrite app_nil_r|auto|apply m_forwards_nil|eassumption].
      + eapply (Hgo [] _ (firstn n w)); [reflexivity| |apply m_forwards_nil|eassumption].
        rewrite app_length, firstn_length. lia.
      + eapply (Hgo _ _ (firstn n1 buf)); eassumption.
  Qed.

  (** A history that ends with [close] has forwarded everything; one that ends with an error has
      forwarded everything up to the point where the inner machine refused. *)
  Lemma b_run_ended : forall cap a pend k w h a',
    length pend <= cap ->
    b_run M cap (BActive a pend k w) h (BEnded a') ->
    exists h0 o r, h = h0 ++ [(o, r)] /\
      ((exists f a1, o = CClose f /\ r = CAUnit (snd (m_finish M f a1)) /\
          m_forwards M a (pend ++ c_consumed w h) a1 /\ a' = fst (m_finish M f a1)) \/
       (exists e, c_error r = Some e /\ m_refuses M a (pend ++ c_consumed w h) e a') \/
       (exists e a1, o = CFlush /\ r = CAUnit (Err e) /\ m_forwards M a (pend ++ c_consumed w h) a1 /\
          m_flush M a1 = (a', Err e))).
  Proof.
    intros cap a pend k w h a' Hp HH.
    remember (BActive a pend k w) as b eqn:Hb. remember (BEnded a') as b' eqn:Hb'.
    revert a pend k w Hb Hp. induction HH as [b|b o r b1 h b2 HP HA HH IH]; intros a pend k w -> Hp; [congruence|].
    subst b2. specialize (IH eq_refl).
    assert (Hgo : forall out1 pend1 new k1 w1 a1, out1 ++ pend1 = pend ++ new -> length pend1 <= cap ->
      m_forwards M a out1 a1 -> b1 = BActive a1 pend1 k1 w1 -> c_consumed w ((o, r) :: h) = new ++ c_consumed w1 h ->
      exists h0 o' r', (o, r) :: h = h0 ++ [(o', r')] /\
      ((exists f a1, o' = CClose f /\ r' = CAUnit (snd (m_finish M f a1)) /\
          m_forwards M a (pend ++ c_consumed w ((o, r) :: h)) a1 /\ a' = fst (m_finish M f a1)) \/
       (exists e, c_error r' = Some e /\ m_refuses M a (pend ++ c_consumed w ((o, r) :: h)) e a') \/
       (exists e a1, o' = CFlush /\ r' = CAUnit (Err e) /\ m_forwards M a (pend ++ c_consumed w ((o, r) :: h)) a1 /\
          m_flush M a1 = (a', Err e)))).
    { intros out1 pend1 new k1 w1 a1 H1 H2 H3 -> Hc. rewrite Hc.
      destruct (IH _ _ _ _ eq_refl H2) as (h0 & o' & r' & -> & H4).
      exists ((o, r) :: h0), o', r'. split; [reflexivity|].
      assert (Hx : forall z, pend ++ new ++ z = out1 ++ (pend1 ++ z)).
      { intros z. now rewrite !app_assoc, H1. }
      rewrite Hx.
      destruct H4 as [(f & a2 & -> & -> & H5 & ->)|[(e & He & H5)|(e & a2 & -> & -> & H5 & H6)]]; [left|right; left|right; right].
      - exists f, a2. splits; auto. eapply m_forwards_trans; eauto.
      - exists e. split; [exact He|]. eapply m_forwards_refuses; eauto.
      - exists e, a2. splits; auto. eapply m_forwards_trans; eauto. }
    assert (Hlast : forall a1, b1 = BEnded a1 -> a1 = a' /\ h = []).
    { intros a1 ->. inversion HH; subst; [auto|contradiction]. }
    assert (Hrefuse : forall e a1, c_error r = Some e -> m_refuses M a pend e a1 -> b1 = BEnded a1 ->
      exists h0 o' r', (o, r) :: h = h0 ++ [(o', r')] /\
      ((exists f a1, o' = CClose f /\ r' = CAUnit (snd (m_finish M f a1)) /\
          m_forwards M a (pend ++ c_consumed w ((o, r) :: h)) a1 /\ a' = fst (m_finish M f a1)) \/
       (exists e, c_error r' = Some e /\ m_refuses M a (pend ++ c_consumed w ((o, r) :: h)) e a') \/
       (exists e a1, o' = CFlush /\ r' = CAUnit (Err e) /\ m_forwards M a (pend ++ c_consumed w ((o, r) :: h)) a1 /\
          m_flush M a1 = (a', Err e)))).
    { intros e a1 He Hr Hb1. destruct (Hlast _ Hb1) as [-> ->]. exists [], o, r. split; [reflexivity|].
      right. left. exists e. split; [exact He|]. now apply m_refuses_more. }
    cbn [b_answer] in HA. cbv zeta in HA.
    destruct o; destruct r as [[u|e]|[n1|e]|[n1|e]|]; try contradiction;
      repeat match goal with
      | H : _ /\ _ |- _ => destruct H
      | H : exists _, _ |- _ => destruct H
      | H : _ \/ _ |- _ => destruct H
      end; try discriminate;
      try (match goal with H : Err ?e = Err ?e' |- _ => injection H as -> end);
      try (match goal with H : m_refuses _ _ _ _ _, H' : b1 = BEnded _ |- _ => exact (Hrefuse _ _ eq_refl H H') end).
    + eapply (Hgo _ _ [x]); try eassumption. reflexivity.
    + match goal with H : b1 = BEnded _ |- _ => destruct (Hlast _ H) as [<- ->] end.
      match goal with H : m_forwards M a pend ?a1 |- _ =>
        exists [], (CClose f), (CAUnit (Ok u)); split; [reflexivity|]; left; exists f, a1; splits; auto; [congruence|] end.
      cbn. now rewrite app_nil_r.
    + match goal with H : b1 = BEnded _ |- _ => destruct (Hlast _ H) as [<- ->] end.
      match goal with H : m_forwards M a pend ?a1 |- _ =>
        exists [], (CClose f), (CAUnit (Err e)); split; [reflexivity|]; left; exists f, a1; splits; auto; [congruence|] end.
      cbn. now rewrite app_nil_r.
    + eapply (Hgo pend [] []); [now rewrite app_nil_r|cbn; lia| |eassumption|reflexivity].
      rewrite <- (app_nil_r pend). eapply m_forwards_trans; [eassumption|]. now apply m_flush_forwards.
    + match goal with H : b1 = BEnded _ |- _ => destruct (Hlast _ H) as [<- ->] end.
      match goal with H : m_forwards M a pend ?a1 |- _ =>
        exists [], CFlush, (CAUnit (Err e)); split; [reflexivity|]; right; right; exists e, a1; splits; auto end.
      cbn. now rewrite app_nil_r.
    + match goal with H : b1 = BActive ?a1 ?p1 ?k1 ?w1, H' : ?o1 ++ ?p1 = pend |- _ =>
        apply (Hgo o1 p1 [] k1 w1 a1); [now rewrite (app_nil_r pend)|lia|auto|auto|reflexivity] end.
    + eapply (Hgo [] pend []); [now rewrite app_nil_r|auto|apply m_forwards_nil|eassumption|reflexivity].
    + eapply (Hgo [] _ (firstn n w)); [reflexivity| |apply m_forwards_nil|eassumption|reflexivity].
      rewrite app_length, firstn_length. lia.
    + eapply (Hgo _ _ (firstn n1 buf)); try eassumption. reflexivity.
  Qed.
End Facts.

(** Any history of a buffering implementation whose caller respects the rules is one that the
    specification permits. *)
Lemma buffers_trace : forall S A T F E (C : bulk_consumer S T F E) (M : machine A T F E) cap R D,
  buffers C M cap R D ->
  forall s h s' a pend k w, c_trace C s h s' -> c_client k w h -> R s a pend k w ->
  exists b', b_run M cap (BActive a pend k w) h b' /\ b_rel R D s' b'.
Proof.
  intros S A T F E C M cap R D HB s h s' a pend k w HT. revert a pend k w.
  induction HT as [s|s o s1 r h s' HD HT IH]; intros a pend k w HC HR.
  - exists (BActive a pend k w). split; [constructor|exact HR].
  - assert (HP : b_permitted (F := F) (BActive a pend k w) o).
    { cbn in HC. destruct HC as [HC _]. destruct o; cbn; auto. }
    destruct (HB o s (BActive a pend k w) HR HP) as (s1' & r' & b1 & HD' & HA & HR').
    rewrite HD in HD'. injection HD' as <- <-.
    enough (exists b', b_run M cap b1 h b' /\ b_rel R D s' b') as (b' & H1 & H2).
    { exists b'. split; [|exact H2]. econstructor; eauto. }
    cbn in HC. destruct HC as [_ HC]. cbn [b_answer] in HA. cbv zeta in HA.
    destruct o; destruct r as [[u|e]|[n1|e]|[n1|e]|]; try contradiction; cbn in HC;
      repeat match goal with
      | H : _ /\ _ |- _ => destruct H
      | H : exists _, _ |- _ => destruct H
      | H : _ \/ _ |- _ => destruct H
      end; subst;
      try (inversion HT; subst; eexists; split; [constructor|exact HR']);
      try (eapply IH; eauto; fail).
Qed.

(** No permitted call panics or diverges. *)
Lemma buffers_total : forall S A T F E (C : bulk_consumer S T F E) (M : machine A T F E) cap R D,
  buffers C M cap R D ->
  forall o r s h s', c_trace C s h s' -> forall a pend k w, c_client k w (h ++ [(o, r)]) -> R s a pend k w ->
  exists s'' r', c_do C o s' = Ret (s'', r').
Proof.
  intros S A T F E C M cap R D HB o r.
  intros s h s' HT. induction HT as [s|s o1 s1 r1 h s' HD HT IH]; intros a pend k w HC HR.
  - assert (HP : b_permitted (F := F) (BActive a pend k w) o).
    { cbn in HC. destruct HC as [HC _]. destruct o; cbn; auto. }
    destruct (HB o s (BActive a pend k w) HR HP) as (s1' & r' & b1 & HD' & _). eauto.
  - assert (HP : b_permitted (F := F) (BActive a pend k w) o1).
    { cbn in HC. destruct HC as [HC _]. destruct o1; cbn; auto. }
    destruct (HB o1 s (BActive a pend k w) HR HP) as (s1' & r' & b1 & HD' & HA & HR').
    rewrite HD in HD'. injection HD' as <- <-.
    cbn in HC. destruct HC as [_ HC]. cbn [b_answer] in HA. cbv zeta in HA.
    destruct o1; destruct r1 as [[u|e]|[n1|e]|[n1|e]|]; try contradiction; cbn in HC;
      repeat match goal with
      | H : _ /\ _ |- _ => destruct H
      | H : exists _, _ |- _ => destruct H
      | H : _ \/ _ |- _ => destruct H
      end; subst;
      try (destruct h; discriminate HC);
      try (eapply IH; eauto; fail).
Qed.

Lemma b_run_app : forall A T F E (M : machine A T F E) cap h1 h2 b b2,
  b_run M cap b (h1 ++ h2) b2 -> exists b1, b_run M cap b h1 b1 /\ b_run M cap b1 h2 b2.
Proof.
  intros A T F E M cap h1. induction h1 as [|[o r] h1 IH]; cbn; intros h2 b b2 H.
  - exists b. split; [constructor|exact H].
  - inversion H; subst. destruct (IH _ _ _ H7) as (b3 & H1 & H2). exists b3. split; [econstructor; eauto|exact H2].
Qed.

Lemma b_run_last : forall A T F E (M : machine A T F E) cap h o r b b2,
  b_run M cap b (h ++ [(o, r)]) b2 -> exists b1, b_run M cap b h b1 /\ b_permitted b1 o /\ b_answer M cap b1 o r b2.
Proof.
  intros A T F E M cap h o r b b2 H. destruct (b_run_app _ _ H) as (b1 & H1 & H2). exists b1.
  inversion H2; subst. inversion H9; subst. auto.
Qed.

(** After a successful flush nothing is withheld. *)
Lemma b_run_flushed : forall A T F E (M : machine A T F E) cap a h b',
  b_run M cap (BActive a [] 0 []) (h ++ [(CFlush, CAUnit (Ok tt))]) b' ->
  exists a1 a' k w, b' = BActive a' [] k w /\ m_forwards M a (c_consumed [] h) a1 /\ m_flush M a1 = (a', Ok tt).
Proof.
  intros A T F E M cap a h b' H. destruct (b_run_last _ _ _ H) as ([a0 pend k w|a0] & H1 & H2 & H3); [|contradiction].
  destruct (b_run_active (pend := []) (Nat.le_0_l _) H1) as (out & Ho & Hl & Hf). cbn in Ho.
  destruct H3 as (a1 & a' & H4 & H5 & ->). exists a1, a', k, w. splits; auto.
  rewrite <- Ho. eapply m_forwards_trans; eauto.
Qed.

(** [close], however it ends, has forwarded everything first, or has been refused while doing so. *)
Lemma b_run_closed : forall A T F E (M : machine A T F E) cap a h f b',
  b_run M cap (BActive a [] 0 []) (h ++ [(CClose f, CAUnit (Ok tt))]) b' ->
  exists a1 a', b' = BEnded a' /\ m_forwards M a (c_consumed [] h) a1 /\ m_finish M f a1 = (a', Ok tt).
Proof.
  intros A T F E M cap a h f b' H. destruct (b_run_last _ _ _ H) as ([a0 pend k w|a0] & H1 & H2 & H3); [|contradiction].
  destruct (b_run_active (pend := []) (Nat.le_0_l _) H1) as (out & Ho & Hl & Hf). cbn in Ho.
  destruct H3 as [(a1 & H4 & H5 & ->)|(e & He & _)]; [|discriminate].
  exists a1, (fst (m_finish M f a1)). splits; auto.
  - rewrite <- Ho. eapply m_forwards_trans; eauto.
  - rewrite H5. apply surjective_pairing.
Qed.

(** An error stems from the inner machine: it refuses one of the items, a flush, or the final value. *)
Lemma b_run_error : forall A T F E (M : machine A T F E) cap a h o r e b',
  b_run M cap (BActive a [] 0 []) (h ++ [(o, r)]) b' -> c_error r = Some e ->
  exists a', b' = BEnded a' /\
    (m_refuses M a (c_consumed [] h) e a' \/
     (exists f a1, o = CClose f /\ m_forwards M a (c_consumed [] h) a1 /\ m_finish M f a1 = (a', Err e)) \/
     (exists a1, o = CFlush /\ m_forwards M a (c_consumed [] h) a1 /\ m_flush M a1 = (a', Err e))).
Proof.
  intros A T F E M cap a h o r e b' H He. destruct (b_run_last _ _ _ H) as ([a0 pend k w|a0] & H1 & H2 & H3); [|contradiction].
  destruct (b_run_active (pend := []) (Nat.le_0_l _) H1) as (out & Ho & Hl & Hf). cbn in Ho. rewrite <- Ho.
  assert (G : (exists a', m_refuses M a0 pend e a' /\ b' = BEnded a') -> exists a', b' = BEnded a' /\
    (m_refuses M a (out ++ pend) e a' \/
     (exists f a1, o = CClose f /\ m_forwards M a (out ++ pend) a1 /\ m_finish M f a1 = (a', Err e)) \/
     (exists a1, o = CFlush /\ m_forwards M a (out ++ pend) a1 /\ m_flush M a1 = (a', Err e)))).
  { intros (a' & H4 & ->). exists a'. split; [reflexivity|]. left. eapply m_forwards_refuses; eauto. }
  cbn in H3. destruct o; destruct r as [[u|e1]|[n1|e1]|[n1|e1]|]; try contradiction; cbn in He; try discriminate;
    injection He as ->; auto.
  - destruct H3 as [(a1 & H4 & H5 & ->)|(e1 & He & H3)].
    + exists (fst (m_finish M f a1)). split; [reflexivity|]. right. left. exists f, a1. splits; auto.
      * eapply m_forwards_trans; eauto.
      * rewrite H5. apply surjective_pairing.
    + injection He as <-. auto.
  - destruct H3 as [H3|(a1 & a2 & H3 & H4 & ->)]; [auto|]. exists a2. split; [reflexivity|].
    right. right. exists a1. splits; auto. eapply m_forwards_trans; eauto.
Qed.

Arguments buffers_trace {S A T F E C M cap R D} _ {s h s' a pend k w} _ _ _.
Arguments buffers_total {S A T F E C M cap R D} _ {o r s h s'} _ {a pend k w} _ _.

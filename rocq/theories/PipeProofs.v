(** Proofs about the pipe functions and the full-slice helpers. *)
From Coq Require Import Bool List Arith Lia.
From Verif Require Import Prelude ListFacts Traits Contracts ContractFacts PipeSpec.
Import ListNotations.
Set Implicit Arguments.

Lemma emits_app : forall S T F E (P : producer S T F E) s xs s1 ys s2,
  emits P s xs s1 -> emits P s1 ys s2 -> emits P s (xs ++ ys) s2.
Proof. intros S T F E P s xs s1 ys s2 H. induction H; cbn; auto. intros. econstructor; eauto. Qed.

Lemma emits_inv_app : forall S T F E (P : producer S T F E) xs s ys s2,
  emits P s (xs ++ ys) s2 -> exists s1, emits P s xs s1 /\ emits P s1 ys s2.
Proof.
  induction xs as [|x xs IH]; cbn; intros s ys s2 H.
  - exists s. split; [constructor|auto].
  - inversion H as [|? ? a ? ? E1 H']; subst. destruct (IH _ _ _ H') as (s1' & H1 & H2). exists s1'.
    split; auto. econstructor; eauto.
Qed.

Lemma emits_det : forall S T F E (P : producer S T F E) xs s s1 s2,
  emits P s xs s1 -> emits P s xs s2 -> s1 = s2.
Proof.
  induction xs as [|x xs IH]; intros s s1 s2 H1 H2.
  - inversion H1; inversion H2; congruence.
  - inversion H1 as [|? ? a ? ? E1 H1']; inversion H2 as [|? ? b ? ? E2 H2']; subst.
    rewrite E1 in E2. injection E2 as <-. eauto.
Qed.

(** ** [pipe] without any assumption on producer and consumer *)
Section PipeTrace.
  Context {SP SC T F PE CE : Type} (P : producer SP T F PE) (C : consumer SC T F CE).

  Lemma piped_cons : forall sp x sp1 sc sc1 xs sp' sc' r,
    p_produce P sp = Ret (sp1, Ok (inl x)) -> c_consume C x sc = Ret (sc1, Ok tt) ->
    piped P C sp1 sc1 xs sp' sc' r -> piped P C sp sc (x :: xs) sp' sc' r.
  Proof.
    intros sp x sp1 sc sc1 xs sp' sc' r Hp Hc H. destruct H.
    - eapply piped_final; eauto; econstructor; eauto.
    - eapply piped_producer_error; eauto; econstructor; eauto.
    - eapply piped_consumer_error; eauto; cbn; econstructor; eauto.
  Qed.

  Lemma piped_cons_inv : forall sp x sc xs sp' sc' r,
    piped P C sp sc (x :: xs) sp' sc' r ->
    exists sp1 sc1, p_produce P sp = Ret (sp1, Ok (inl x)) /\ c_consume C x sc = Ret (sc1, Ok tt) /\
      piped P C sp1 sc1 xs sp' sc' r.
  Proof.
    intros sp x sc xs sp' sc' r H. remember (x :: xs) as ys eqn:Hys.
    destruct H as [ys sp1 sc1 f sp' sc' r H1 H2 H3 H4|ys sp1 e sp' sc' H1 H2 H3|ys y sc1 e sp' sc' H1 H2 H3]; subst ys.
    - inversion H1; inversion H2; subst. do 2 eexists; splits; eauto. eapply piped_final; eauto.
    - inversion H1; inversion H2; subst. do 2 eexists; splits; eauto. eapply piped_producer_error; eauto.
    - cbn in H1. inversion H1; inversion H2; subst. do 2 eexists; splits; eauto. eapply piped_consumer_error; eauto.
  Qed.

  Lemma pipe_sound : forall fuel sp sc sp' sc' r,
    pipe fuel P C sp sc = Ret (sp', sc', r) -> exists xs, piped P C sp sc xs sp' sc' r.
  Proof.
    induction fuel as [|fuel IH]; cbn [pipe]; intros sp sc sp' sc' r H; [discriminate|].
    destruct (p_produce P sp) as [[sp1 r1]| |] eqn:E1; cbn [bind] in H; try discriminate.
    destruct r1 as [[x|f]|e].
    - destruct (c_consume C x sc) as [[sc1 r2]| |] eqn:E2; cbn [bind] in H; try discriminate.
      destruct r2 as [[]|e].
      + destruct (IH _ _ _ _ _ H) as (xs & Hxs). exists (x :: xs). eapply piped_cons; eauto.
      + injection H as <- <- <-. exists []. eapply piped_consumer_error; eauto; cbn; repeat econstructor; eauto.
    - destruct (c_close C f sc) as [[sc1 r2]| |] eqn:E2; cbn [bind] in H; try discriminate.
      exists []. assert (Hr : sp1 = sp' /\ sc1 = sc' /\ r = map_err PipeConsumer r2).
      { destruct r2 as [[]|e]; injection H as <- <- <-; auto. }
      destruct Hr as (<- & <- & ->). eapply piped_final; eauto; constructor.
    - injection H as <- <- <-. exists []. eapply piped_producer_error; eauto; constructor.
  Qed.

  Lemma pipe_complete : forall xs fuel sp sc sp' sc' r,
    piped P C sp sc xs sp' sc' r -> length xs < fuel -> pipe fuel P C sp sc = Ret (sp', sc', r).
  Proof.
    induction xs as [|x xs IH]; intros [|fuel] sp sc sp' sc' r H Hf; cbn in Hf; try lia; cbn [pipe].
    - inversion H as [ys sp1 sc1 f sp2 sc2 r2 H1 H2 H3 H4|ys sp1 e sp2 sc2 H1 H2 H3|ys y sc1 e sp2 sc2 H1 H2 H3]; subst.
      + inversion H1; inversion H2; subst. rewrite H3. cbn [bind]. rewrite H4. cbn [bind].
        destruct r2 as [[]|]; reflexivity.
      + inversion H1; inversion H2; subst. rewrite H3. reflexivity.
      + cbn in H1. inversion H1 as [|? ? ? ? ? E1 E2]; inversion E2; inversion H2; subst. rewrite E1. cbn [bind].
        rewrite H3. reflexivity.
    - apply piped_cons_inv in H as (sp1 & sc1 & E1 & E2 & H).
      rewrite E1. cbn [bind]. rewrite E2. cbn [bind]. apply IH; auto; lia.
  Qed.

  Lemma pipe_at_most_sound_aux : forall todo i sp sc sp' sc' r,
    pipe_at_most_loop todo P C i sp sc = Ret (sp', sc', r) ->
    exists xs r', piped_at_most P C todo sp sc xs sp' sc' r' /\
      r = match r' with Ok n => Ok (i + n) | Err e => Err e end.
  Proof.
    induction todo as [|todo IH]; cbn [pipe_at_most_loop]; intros i sp sc sp' sc' r H.
    - injection H as <- <- <-. exists [], (Ok 0). split; [|now rewrite Nat.add_0_r].
      constructor; auto; constructor.
    - destruct (p_produce P sp) as [[sp1 r1]| |] eqn:E1; cbn [bind] in H; try discriminate.
      destruct r1 as [[x|f]|e].
      + destruct (c_consume C x sc) as [[sc1 r2]| |] eqn:E2; cbn [bind] in H; try discriminate.
        destruct r2 as [[]|e].
        * destruct (IH _ _ _ _ _ _ H) as (xs & r' & Hxs & ->).
          inversion Hxs as [ys sp2 sc2 H1 H2 H3|ys sp2 sc2 r0 H1 H2]; subst.
          -- exists (x :: xs), (Ok (S (length xs))). split; [|f_equal; lia].
             constructor; auto; econstructor; eauto.
          -- exists (x :: xs), (match r0 with Ok _ => Ok (length (x :: xs)) | Err e => Err e end).
             split; [|destruct r0; cbn; [f_equal; lia|reflexivity]].
             constructor; [cbn; lia|]. eapply piped_cons; eauto.
        * injection H as <- <- <-. exists [], (Err (PipeConsumer e)). split; auto.
          assert (HP : piped P C sp sc [] sp1 sc1 (Err (PipeConsumer e))).
          { eapply piped_consumer_error; eauto; cbn; repeat econstructor; eauto. }
          apply (piped_at_most_short (count := S todo)) in HP; [exact HP|cbn; lia].
      + destruct (c_close C f sc) as [[sc1 r2]| |] eqn:E2; cbn [bind] in H; try discriminate.
        assert (HP : piped P C sp sc [] sp1 sc1 (map_err PipeConsumer r2)).
        { eapply piped_final; eauto; constructor. }
        apply (piped_at_most_short (count := S todo)) in HP; [|cbn; lia].
        destruct r2 as [[]|e]; injection H as <- <- <-; do 2 eexists; (split; [exact HP|]); cbn; auto.
      + injection H as <- <- <-. exists [], (Err (PipeProducer e)). split; auto.
        assert (HP : piped P C sp sc [] sp1 sc (Err (PipeProducer e))).
        { eapply piped_producer_error; eauto; constructor. }
        apply (piped_at_most_short (count := S todo)) in HP; [exact HP|cbn; lia].
  Qed.

  Lemma pipe_at_most_complete_aux : forall todo i sp sc xs sp' sc' r,
    piped_at_most P C todo sp sc xs sp' sc' r ->
    pipe_at_most_loop todo P C i sp sc = Ret (sp', sc', match r with Ok n => Ok (i + n) | Err e => Err e end).
  Proof.
    induction todo as [|todo IH]; cbn [pipe_at_most_loop]; intros i sp sc xs sp' sc' r H.
    - inversion H as [ys sp2 sc2 H1 H2 H3|ys sp2 sc2 r2 H1 H2]; subst; [|lia]. destruct xs; [|discriminate].
      inversion H2; inversion H3; subst. now rewrite Nat.add_0_r.
    - destruct xs as [|x xs].
      + inversion H as [ys sp2 sc2 H1 H2 H3|ys sp2 sc2 r2 H1 H2]; subst; [discriminate|].
        apply (@pipe_complete [] 1) in H2; [|cbn; lia]. cbn in H2.
        destruct (p_produce P sp) as [[sp1 r1]| |] eqn:E1; cbn [bind] in *; try discriminate.
        destruct r1 as [[y|f]|e].
        * destruct (c_consume C y sc) as [[sc1 r3]| |] eqn:E2; cbn [bind] in *; try discriminate.
          destruct r3 as [[]|e]; [discriminate|]. injection H2 as <- <- <-. reflexivity.
        * destruct (c_close C f sc) as [[sc1 r3]| |] eqn:E2; cbn [bind] in *; try discriminate.
          destruct r3 as [[]|e]; injection H2 as <- <- <-; cbn; [now rewrite Nat.add_0_r|reflexivity].
        * injection H2 as <- <- <-. reflexivity.
      + inversion H as [ys sp2 sc2 H1 H2 H3|ys sp2 sc2 r2 H1 H2]; subst.
        * inversion H2 as [|? ? sp1 ? ? E1 H2']; inversion H3 as [|? ? sc1 ? ? E2 H3']; subst.
          rewrite E1. cbn [bind]. rewrite E2. cbn [bind].
          cbn in H1. injection H1 as H1.
          rewrite (IH _ _ _ xs sp' sc' (Ok todo)); [|now constructor]. do 2 f_equal. f_equal. lia.
        * apply piped_cons_inv in H2 as (sp1 & sc1 & E1 & E2 & H2). cbn in H1.
          rewrite E1. cbn [bind]. rewrite E2. cbn [bind].
          apply (piped_at_most_short (count := todo)) in H2; [|lia].
          rewrite (IH _ _ _ _ _ _ _ H2). destruct r2; cbn; [do 2 f_equal; f_equal; lia|reflexivity].
  Qed.

  Lemma pipe_at_most_iff : forall count sp sc sp' sc' r,
    pipe_at_most P C count sp sc = Ret (sp', sc', r) <->
    exists xs, piped_at_most P C count sp sc xs sp' sc' r.
  Proof.
    intros count sp sc sp' sc' r. unfold pipe_at_most. split.
    - intros H. apply pipe_at_most_sound_aux in H as (xs & r' & H & ->). exists xs.
      destruct r'; exact H.
    - intros (xs & H). rewrite (pipe_at_most_complete_aux 0 H). destruct r; reflexivity.
  Qed.

  (** [consume_full_slice] *)
  Lemma consume_full_slice_from_ok : forall buf i s s',
    consume_full_slice_from C i buf s = Ret (s', Ok tt) <-> accepts C s buf s'.
  Proof.
    induction buf as [|x buf IH]; cbn [consume_full_slice_from]; intros i s s'; split; intros H.
    - injection H as <-. constructor.
    - inversion H; subst. reflexivity.
    - destruct (c_consume C x s) as [[s1 [[]|e]]| |] eqn:E1; cbn [bind] in H; try discriminate.
      econstructor; eauto. now apply (IH (i + 1)).
    - inversion H as [|? ? s1 ? ? E1 H']; subst. rewrite E1. cbn [bind]. now apply IH.
  Qed.

  Lemma consume_full_slice_from_err : forall buf i s s' n e,
    consume_full_slice_from C i buf s = Ret (s', Err (mk_cale n e)) <->
    exists xs x ys s1, buf = xs ++ x :: ys /\ n = i + length xs /\ accepts C s xs s1 /\
      c_consume C x s1 = Ret (s', Err e).
  Proof.
    induction buf as [|x buf IH]; cbn [consume_full_slice_from]; intros i s s' n e; split; intros H.
    - discriminate.
    - destruct H as ([|] & ? & ? & ? & ? & ?); discriminate.
    - destruct (c_consume C x s) as [[s1 [[]|e1]]| |] eqn:E1; cbn [bind] in H; try discriminate.
      + apply IH in H as (xs & y & ys & s2 & -> & -> & HA & HC).
        exists (x :: xs), y, ys, s2. splits; auto; [cbn; lia|]. econstructor; eauto.
      + injection H as <- <- <-. exists [], x, buf, s. splits; auto; try constructor; cbn; lia.
    - destruct H as (xs & y & ys & s1 & Hb & Hn & HA & HC). destruct xs as [|x' xs].
      + cbn in Hb. injection Hb as <- <-. inversion HA; subst. rewrite HC. cbn. now rewrite Nat.add_0_r.
      + cbn in Hb. injection Hb as <- ->. inversion HA as [|? ? s2 ? ? E1 H']; subst. rewrite E1. cbn [bind].
        apply IH. exists xs, y, ys, s1. splits; auto. cbn. lia.
  Qed.

  (** [overwrite_full_slice] *)
  Lemma overwrite_from : forall todo done rest s,
    length rest = todo ->
    forall s' buf' r,
    overwrite_full_slice_from P todo (length done) (done ++ rest) s = Ret (s', (buf', r)) <->
    match r with
    | Ok _ => exists xs, length xs = todo /\ emits P s xs s' /\ buf' = done ++ xs
    | Err (mk_pale n q) => exists xs s1, length xs < todo /\ n = length done + length xs /\
        emits P s xs s1 /\ buf' = done ++ xs ++ skipn (length xs) rest /\
        p_produce P s1 = Ret (s', match q with inl f => Ok (inr f) | inr e => Err e end)
    end.
  Proof.
    induction todo as [|todo IH]; intros done rest s Hrest s' buf' r; cbn [overwrite_full_slice_from].
    - destruct rest; [|discriminate]. rewrite app_nil_r. split; intros H.
      + injection H as <- <- <-. exists []. splits; auto; [constructor|now rewrite app_nil_r].
      + destruct r as [[]|[n q]].
        * destruct H as ([|] & H1 & H2 & ->); [|discriminate]. inversion H2; subst. now rewrite app_nil_r.
        * destruct H as (xs & s1 & H & _). lia.
    - destruct rest as [|y rest]; [discriminate|]. cbn in Hrest. injection Hrest as Hrest.
      assert (Hset : forall x, index_set (length done) x (done ++ y :: rest) = Ret ((done ++ [x]) ++ rest)).
      { intros x. rewrite index_set_ok by (rewrite app_length; cbn; lia). unfold blit.
        rewrite firstn_app, firstn_all, Nat.sub_diag, app_nil_r. cbn [length].
        rewrite skipn_app, skipn_all2 by lia. replace (length done + 1 - length done) with 1 by lia.
        cbn. now rewrite <- app_assoc. }
      assert (Hd : forall x, length done + 1 = length (done ++ [x])) by (intros; rewrite app_length; reflexivity).
      destruct (p_produce P s) as [[s1 r1]| |] eqn:E1; cbn [bind].
      + destruct r1 as [[x|f]|e].
        * rewrite Hset. cbn [bind]. rewrite (Hd x), (IH _ _ _ Hrest).
          destruct r as [u|[n q]]; split.
          -- intros (xs & H1 & H2 & ->). exists (x :: xs). splits; [cbn; lia|econstructor; eauto|now rewrite <- app_assoc].
          -- intros (xs & H1 & H2 & ->). destruct xs as [|x' xs]; [discriminate|]. inversion H2 as [|? ? s2 ? ? E2 H2']; subst.
             rewrite E1 in E2. injection E2 as <- <-. exists xs. splits; [cbn in *; lia|auto|now rewrite <- app_assoc].
          -- intros (xs & s2 & H1 & -> & H2 & -> & H3). exists (x :: xs), s2.
             splits; [cbn; lia|rewrite app_length; cbn; lia|econstructor; eauto|now rewrite <- app_assoc|auto].
          -- intros (xs & s2 & H1 & -> & H2 & -> & H3). destruct xs as [|x' xs].
             ++ inversion H2; subst. rewrite E1 in H3. destruct q; discriminate.
             ++ inversion H2 as [|? ? s3 ? ? E2 H2']; subst. rewrite E1 in E2. injection E2 as <- <-.
                exists xs, s2. splits; [cbn in *; lia|rewrite app_length; cbn; lia|auto|now rewrite <- app_assoc|auto].
        * split; intros H.
          -- injection H as <- <- <-. exists [], s. splits; cbn; auto; try lia. constructor.
          -- destruct r as [u|[n q]].
             ++ destruct H as (xs & H1 & H2 & ->). destruct xs as [|x' xs]; [discriminate|].
                inversion H2 as [|? ? s3 ? ? E2 H2']; subst. congruence.
             ++ destruct H as (xs & s2 & H1 & -> & H2 & -> & H3). destruct xs as [|x' xs].
                ** inversion H2; subst. rewrite E1 in H3. cbn. rewrite Nat.add_0_r.
                   destruct q; try discriminate H3; injection H3 as <- <-; reflexivity.
                ** inversion H2 as [|? ? s3 ? ? E2 H2']; subst. congruence.
        * split; intros H.
          -- injection H as <- <- <-. exists [], s. splits; cbn; auto; try lia. constructor.
          -- destruct r as [u|[n q]].
             ++ destruct H as (xs & H1 & H2 & ->). destruct xs as [|x' xs]; [discriminate|].
                inversion H2 as [|? ? s3 ? ? E2 H2']; subst. congruence.
             ++ destruct H as (xs & s2 & H1 & -> & H2 & -> & H3). destruct xs as [|x' xs].
                ** inversion H2; subst. rewrite E1 in H3. cbn. rewrite Nat.add_0_r.
                   destruct q; try discriminate H3; injection H3 as <- <-; reflexivity.
                ** inversion H2 as [|? ? s3 ? ? E2 H2']; subst. congruence.
      + split; intros H; [discriminate|]. exfalso. destruct r as [u|[n q]].
        * destruct H as (xs & H1 & H2 & ->). destruct xs as [|x' xs]; [discriminate|].
          inversion H2 as [|? ? s3 ? ? E2 H2']; subst. congruence.
        * destruct H as (xs & s2 & H1 & -> & H2 & -> & H3). inversion H2; subst; congruence.
      + split; intros H; [discriminate|]. exfalso. destruct r as [u|[n q]].
        * destruct H as (xs & H1 & H2 & ->). destruct xs as [|x' xs]; [discriminate|].
          inversion H2 as [|? ? s3 ? ? E2 H2']; subst. congruence.
        * destruct H as (xs & s2 & H1 & -> & H2 & -> & H3). inversion H2; subst; congruence.
  Qed.
End PipeTrace.

(** ** Lawful producers and consumers *)
Section Lawful.
  Context {SP SC A T F PE CE : Type} {P : bulk_producer SP T F PE} {C : bulk_consumer SC T F CE}
    {M : machine A T F CE}
    {RP : SP -> list T -> res F PE -> nat -> Prop} {DP : SP -> Prop}
    {RC : SC -> A -> nat -> list T -> Prop} {DC : SC -> A -> Prop}
    (LP : lawful_producer P RP DP) (LC : lawful_consumer C M RC DC).

  Lemma pipe_lawful : forall xs fuel sp l k sc a kc w,
    RP sp xs l k -> RC sc a kc w -> length xs < fuel ->
    match pipe_effect M xs l a with
    | (p', c', r) => exists sp' sc', pipe fuel P C sp sc = Ret (sp', sc', r) /\
        p_rel RP DP sp' p' /\ c_rel RC DC sc' c'
    end.
  Proof.
    unfold pipe_effect.
    induction xs as [|x xs IH]; intros [|fuel] sp l k sc a kc w HP HC Hf; cbn in Hf; try lia; cbn [pipe m_feed].
    - destruct (lp_produce_last LP HP) as (sp1 & E1 & HD). rewrite E1. destruct l as [f|e]; cbn [report_last bind].
      + destruct (lc_close LC f HC) as (sc1 & E2 & HD2). rewrite E2. cbn [bind].
        exists sp1, sc1. splits; auto. destruct (snd (m_finish M f a)) as [[]|]; reflexivity.
      + exists sp1, sc. splits; auto. exact (lc_forget LC HC).
    - destruct (lp_produce LP HP) as (sp1 & E1 & HP1). rewrite E1. cbn [bind].
      destruct (lc_consume LC x HC) as (sc1 & E2 & HC1). rewrite E2. cbn [bind].
      destruct (m_step M x a) as [a1 [[]|e]]; cbn [snd].
      + specialize (IH fuel _ _ _ _ _ _ _ HP1 HC1 ltac:(lia)).
        destruct (m_feed M xs a1) as [[a2 n] [e|]]; exact IH.
      + exists sp1, sc1. splits; auto. cbn. exact (lp_forget LP HP1).
  Qed.

  Lemma pipe_at_most_lawful : forall count sp xs l k sc a kc w,
    RP sp xs l k -> RC sc a kc w ->
    match pipe_at_most_effect M count xs l a with
    | (p', c', r) => exists sp' sc', pipe_at_most P C count sp sc = Ret (sp', sc', r) /\
        p_rel RP DP sp' p' /\ c_rel RC DC sc' c'
    end.
  Proof.
    intros count sp xs l k sc a kc w HP HC.
    assert (H : forall todo i sp xs l k sc a kc w, RP sp xs l k -> RC sc a kc w ->
      match pipe_at_most_effect M todo xs l a with
      | (p', c', r) => exists sp' sc',
          pipe_at_most_loop todo P C i sp sc =
            Ret (sp', sc', match r with Ok n => Ok (i + n) | Err e => Err e end) /\
          p_rel RP DP sp' p' /\ c_rel RC DC sc' c'
      end).
    { clear - LP LC. unfold pipe_at_most_effect, pipe_effect. 
      induction todo as [|todo IH]; intros i sp xs l k sc a kc w HP HC; cbn [pipe_at_most_loop].
      - destruct (Nat.ltb_spec (length xs) 0); [lia|]. cbn [firstn m_feed skipn].
        exists sp, sc. rewrite Nat.add_0_r. splits; auto; [exact (lp_forget LP HP)|exact (lc_forget LC HC)].
      - destruct xs as [|x xs].
        + cbn [length m_feed]. destruct (Nat.ltb_spec 0 (S todo)); [|lia].
          destruct (lp_produce_last LP HP) as (sp1 & E1 & HD). rewrite E1. destruct l as [f|e]; cbn [report_last bind].
          * destruct (lc_close LC f HC) as (sc1 & E2 & HD2). rewrite E2. cbn [bind].
            destruct (snd (m_finish M f a)) as [[]|]; cbn [map_err]; exists sp1, sc1; splits; auto.
            now rewrite Nat.add_0_r.
          * exists sp1, sc. splits; auto. exact (lc_forget LC HC).
        + destruct (lp_produce LP HP) as (sp1 & E1 & HP1). rewrite E1. cbn [bind].
          destruct (lc_consume LC x HC) as (sc1 & E2 & HC1). rewrite E2. cbn [bind].
          cbn [length firstn m_feed].
          replace (S (length xs) <? S todo) with (length xs <? todo) by
            (destruct (Nat.ltb_spec (length xs) todo), (Nat.ltb_spec (S (length xs)) (S todo)); auto; lia).
          destruct (m_step M x a) as [a1 [[]|e]]; cbn [snd].
          * specialize (IH (i + 1) _ _ _ _ _ _ _ _ HP1 HC1).
            destruct (length xs <? todo) eqn:Hlt.
            -- destruct (m_feed M xs a1) as [[a2 n] [e|]]; [exact IH|]. destruct l as [f|e]; [|exact IH].
               destruct (snd (m_finish M f a2)) as [[]|]; cbn [map_err] in *; [|exact IH].
               replace (i + S (length xs)) with (i + 1 + length xs) by lia. exact IH.
            -- destruct (m_feed M (firstn todo xs) a1) as [[a2 n] [e|]]; [exact IH|].
               replace (i + S todo) with (i + 1 + todo) by lia. exact IH.
          * destruct (length xs <? todo) eqn:Hlt; exists sp1, sc1; splits; auto; exact (lp_forget LP HP1). }
    specialize (H count 0 _ _ _ _ _ _ _ _ HP HC). unfold pipe_at_most.
    destruct (pipe_at_most_effect M count xs l a) as [[p' c'] [n|e]]; exact H.
  Qed.

  (** One round of the bulk loops. *)
  Lemma bulk_round : forall sp xs l k sc a kc w limit,
    RP sp xs l k -> RC sc a kc w -> xs <> [] -> 1 <= limit ->
    exists sp1 ys rest, p_expose P sp = Ret (sp1, Ok (inl ys)) /\ xs = ys ++ rest /\ ys <> [] /\
      RP sp1 xs l (length ys) /\
      ((exists sc1 a1 n sp2, c_bulk_consume C (firstn (Nat.min limit (length ys)) ys) sc = Ret (sc1, Ok n) /\
          1 <= n /\ n <= limit /\ n <= length xs /\ m_feed M (firstn n xs) a = (a1, n, None) /\ RC sc1 a1 0 [] /\
          p_consider P n sp1 = Ret (sp2, Ok tt) /\ RP sp2 (skipn n xs) l (length ys - n)) \/
       (exists sc1 a1 n e, c_bulk_consume C (firstn (Nat.min limit (length ys)) ys) sc = Ret (sc1, Err e) /\
          n < limit /\ n < length xs /\
          m_feed M (firstn limit xs) a = (a1, n, Some e) /\ DC sc1 a1)).
  Proof.
    intros sp xs l k sc a kc w limit HP HC Hxs Hl.
    destruct (lp_expose LP HP Hxs) as (sp1 & ys & rest & E1 & Hne & Heq & HP1).
    exists sp1, ys, rest. splits; auto.
    assert (Hly : 1 <= length ys) by (destruct ys; [congruence|cbn; lia]).
    assert (Hlx : length ys <= length xs) by (rewrite Heq, app_length; lia).
    remember (Nat.min limit (length ys)) as m eqn:Hm.
    assert (Hlen : length (firstn m ys) = m) by (rewrite firstn_length; lia).
    assert (Hfy : forall n, n <= m -> firstn n (firstn m ys) = firstn n xs).
    { intros n Hn. rewrite firstn_firstn, Nat.min_l by lia. rewrite Heq, firstn_app.
      replace (n - length ys) with 0 by lia. cbn. now rewrite app_nil_r. }
    assert (Hnn : firstn m ys <> []) by (intros H; rewrite H in Hlen; cbn in Hlen; lia).
    destruct (lc_bulk LC (firstn m ys) HC Hnn) as [(sc1 & n & a1 & E2 & Hn & HF & HC1)|(sc1 & n & e & a1 & E2 & HF & HD)].
    - left. rewrite Hlen in Hn. rewrite Hfy in HF by lia.
      destruct (lp_consider LP n HP1 Hly) as (sp2 & E3 & HP2); [lia|].
      exists sc1, a1, n, sp2. splits; auto; lia.
    - right. exists sc1, a1, n, e.
      assert (Hc : n < length (firstn m ys)) by (apply (m_feed_count HF); discriminate).
      splits; auto; try lia.
      apply (m_feed_prefix_err m). rewrite firstn_firstn, Nat.min_l by lia.
      rewrite <- (Hfy m) by lia. rewrite firstn_firstn, Nat.min_id. exact HF.
  Qed.

  Lemma bulk_pipe_lawful : forall fuel xs sp l k sc a kc w,
    RP sp xs l k -> RC sc a kc w -> length xs < fuel ->
    match pipe_effect M xs l a with
    | (p', c', r) => exists sp' sc' p'', bulk_pipe fuel P C sp sc = Ret (sp', sc', r) /\
        p_rel RP DP sp' p'' /\ lags xs l r p' p'' /\ c_rel RC DC sc' c'
    end.
  Proof.
    unfold pipe_effect.
    induction fuel as [|fuel IH]; intros xs sp l k sc a kc w HP HC Hf; [lia|]. cbn [bulk_pipe].
    destruct xs as [|x0 xs0]; [|remember (x0 :: xs0) as xs eqn:Hxs].
    - destruct (lp_expose_last LP HP) as (sp1 & E1 & HD). rewrite E1. cbn [m_feed].
      destruct l as [f|e]; cbn [report_last bind].
      + destruct (lc_close LC f HC) as (sc1 & E2 & HD2). rewrite E2. cbn [bind].
        exists sp1, sc1, PEnded. splits; auto; [|constructor]. destruct (snd (m_finish M f a)) as [[]|]; reflexivity.
      + exists sp1, sc, PEnded. splits; auto; [constructor|exact (lc_forget LC HC)].
    - assert (Hne : xs <> []) by (subst; discriminate). clear x0 xs0 Hxs.
      destruct (@bulk_round _ _ _ _ _ _ _ _ (length xs) HP HC Hne) as (sp1 & ys & rest & E1 & Heq & Hys & HP1 & H).
      { destruct xs; [congruence|cbn; lia]. }
      rewrite E1. cbn [bind].
      assert (Hlx : length ys <= length xs) by (rewrite Heq, app_length; lia).
      rewrite Nat.min_r, firstn_all in H by lia. rewrite firstn_all in H.
      destruct H as [(sc1 & a1 & n & sp2 & E2 & Hn1 & _ & Hn2 & HF & HC1 & E3 & HP2)|(sc1 & a1 & n & e & E2 & Hn1 & Hn2 & HF & HD)];
        rewrite E2; cbn [bind].
      + rewrite E3. cbn [bind].
        specialize (IH (skipn n xs) _ _ _ _ _ _ _ HP2 HC1). rewrite skipn_length in IH. specialize (IH ltac:(lia)).
        rewrite (m_feed_prefix_ok n Hn2 HF).
        destruct (m_feed M (skipn n xs) a1) as [[a2 p] [e|]] eqn:HF2.
        * destruct IH as (sp' & sc' & p'' & I1 & I2 & I3 & I4). exists sp', sc', p''. splits; auto.
          apply m_feed_count in HF2 as (HF2 & _ & HF3). specialize (HF3 ltac:(discriminate)).
          rewrite skipn_length in HF2, HF3.
          rewrite skipn_skipn in I3. replace (n + S p) with (S (n + p)) in I3 by lia.
          clear Heq. inversion I3 as [r0|x0 q0|e' m q Hm Hq E7 E4 E5]; subst.
          rewrite skipn_length in Hq.
          rewrite skipn_skipn. 
          assert (skipn (n + S q) xs = skipn (S (n + p)) xs) as E6 by (rewrite <- skipn_skipn; exact E4).
          apply (f_equal (@length _)) in E6. rewrite !skipn_length in E6.
          apply lags_behind; lia.
        * destruct l as [f|e]; [|destruct IH as (sp' & sc' & p'' & I1 & I2 & I3 & I4)].
          -- destruct IH as (sp' & sc' & p'' & I1 & I2 & I3 & I4). exists sp', sc', p''. splits; auto. inversion I3; constructor.
          -- exists sp', sc', p''. splits; auto. inversion I3; constructor.
      + rewrite HF. exists sp1, sc1, (PActive xs l 0). splits; auto; [exact (lp_forget LP HP1)|].
        change xs with (skipn 0 xs) at 3. apply lags_behind; lia.
  Qed.

  (** With a consumer that accepts what it exposes, nothing lags. *)
  Lemma bulk_pipe_clean : forall fuel xs sp l k sc a kc w a' n e,
    clean_bulk C M RC ->
    RP sp xs l k -> RC sc a kc w -> length xs < fuel ->
    m_feed M xs a = (a', n, Some e) ->
    exists sp' sc', bulk_pipe fuel P C sp sc = Ret (sp', sc', Err (PipeConsumer e)) /\
      RP sp' (skipn n xs) l 0 /\ DC sc' a'.
  Proof.
    induction fuel as [|fuel IH]; intros xs sp l k sc a kc w a' m err CL HP HC Hf HM; [lia|]. cbn [bulk_pipe].
    assert (Hne : xs <> []) by (intros ->; discriminate).
    destruct (@bulk_round _ _ _ _ _ _ _ _ (length xs) HP HC Hne) as (sp1 & ys & rest & E1 & Heq & Hys & HP1 & H).
    { destruct xs; [congruence|cbn; lia]. }
    rewrite E1. cbn [bind].
    assert (Hlx : length ys <= length xs) by (rewrite Heq, app_length; lia).
    rewrite Nat.min_r, firstn_all in H by lia. rewrite firstn_all in H.
    destruct H as [(sc1 & a1 & n & sp2 & E2 & Hn1 & _ & Hn2 & HF & HC1 & E3 & HP2)|(sc1 & a1 & n & e & E2 & Hn1 & Hn2 & HF & HD)];
        rewrite E2; cbn [bind].
    - rewrite E3. cbn [bind]. rewrite (m_feed_prefix_ok n Hn2 HF) in HM.
      destruct (m_feed M (skipn n xs) a1) as [[a2 p] e2] eqn:HF2. injection HM as -> <- ->.
      assert (Hl : length (skipn n xs) < fuel) by (rewrite skipn_length; lia).
      destruct (IH _ _ _ _ _ _ _ _ _ _ _ CL HP2 HC1 Hl HF2) as (sp' & sc' & I1 & I2 & I3). exists sp', sc'. splits; auto.
      now rewrite skipn_skipn in I2.
    - rewrite HM in HF. injection HF as -> -> ->.
      destruct ys as [|y ys]; [congruence|]. pose proof (CL _ _ _ _ _ _ _ _ HC E2) as Hy.
      subst xs. cbn in HM. destruct (m_step M y a) as [a2 [|]]; cbn in Hy; [discriminate|].
      injection HM as <- <- _. exists sp1, sc1. splits; auto. exact (lp_forget LP HP1).
  Qed.

  Lemma bulk_pipe_at_most_lawful : forall fuel count xs sp l k sc a kc w,
    RP sp xs l k -> RC sc a kc w -> count < fuel ->
    match pipe_at_most_effect M count xs l a with
    | (p', c', r) => exists sp' sc' p'', bulk_pipe_at_most fuel P C count sp sc = Ret (sp', sc', r) /\
        p_rel RP DP sp' p'' /\ lags xs l r p' p'' /\ c_rel RC DC sc' c'
    end.
  Proof.
    assert (H : forall fuel count piped xs sp l k sc a kc w,
      RP sp xs l k -> RC sc a kc w -> piped <= count -> count - piped < fuel ->
      match pipe_at_most_effect M (count - piped) xs l a with
      | (p', c', r) => exists sp' sc' p'',
          bulk_pipe_at_most_loop fuel P C count piped sp sc =
            Ret (sp', sc', match r with Ok n => Ok (piped + n) | Err e => Err e end) /\
          p_rel RP DP sp' p'' /\ lags xs l r p' p'' /\ c_rel RC DC sc' c'
      end).
    { unfold pipe_at_most_effect.
      induction fuel as [|fuel IH]; intros count piped xs sp l k sc a kc w HP HC Hpc Hf; [lia|].
      cbn [bulk_pipe_at_most_loop].
      destruct (Nat.ltb_spec piped count) as [Hlt|Hge].
      2:{ replace (count - piped) with 0 by lia. destruct (Nat.ltb_spec (length xs) 0); [lia|].
          cbn [firstn m_feed skipn]. exists sp, sc, (PActive xs l 0). rewrite Nat.add_0_r.
          replace piped with count by lia. splits; auto; [exact (lp_forget LP HP)|constructor|exact (lc_forget LC HC)]. }
      destruct xs as [|x0 xs0]; [|remember (x0 :: xs0) as xs eqn:Hxs].
      - destruct (lp_expose_last LP HP) as (sp1 & E1 & HD). rewrite E1. unfold pipe_effect. cbn [m_feed length].
        destruct (Nat.ltb_spec 0 (count - piped)); [|lia].
        destruct l as [f|e]; cbn [report_last bind].
        + destruct (lc_close LC f HC) as (sc1 & E2 & HD2). rewrite E2. cbn [bind].
          destruct (snd (m_finish M f a)) as [[]|]; cbn [map_err]; exists sp1, sc1, PEnded; splits; auto; try constructor.
          now rewrite Nat.add_0_r.
        + exists sp1, sc, PEnded. splits; auto; [constructor|exact (lc_forget LC HC)].
      - assert (Hne : xs <> []) by (subst; discriminate). clear x0 xs0 Hxs.
        remember (count - piped) as limit eqn:Hlim.
        destruct (@bulk_round _ _ _ _ _ _ _ _ limit HP HC Hne) as (sp1 & ys & rest & E1 & Heq & Hys & HP1 & H); [lia|].
        rewrite E1. cbn [bind]. rewrite csub_ok by lia. cbn [bind]. rewrite <- Hlim.
        rewrite slice_to_ok by lia. cbn [bind].
        destruct H as [(sc1 & a1 & n & sp2 & E2 & Hn1 & Hnl & Hn2 & HF & HC1 & E3 & HP2)|(sc1 & a1 & n & e & E2 & Hn1 & Hn2 & HF & HD)];
          rewrite E2; cbn [bind].
        + rewrite E3. cbn [bind].
          specialize (IH count (piped + n) (skipn n xs) _ _ _ _ _ _ _ HP2 HC1 ltac:(lia) ltac:(lia)).
          replace (count - (piped + n)) with (limit - n) in IH by lia.
          rewrite skipn_length in IH.
          destruct (Nat.ltb_spec (length xs) limit) as [Hx|Hx],
                   (Nat.ltb_spec (length xs - n) (limit - n)) as [Hy|Hy]; try lia.
          * unfold pipe_effect in *. rewrite (m_feed_prefix_ok n Hn2 HF).
            destruct (m_feed M (skipn n xs) a1) as [[a2 p] [e|]] eqn:HF2.
            -- destruct IH as (sp' & sc' & p'' & I1 & I2 & I3 & I4). exists sp', sc', p''. splits; auto.
               apply m_feed_count in HF2 as (HF2 & _ & HF3). specialize (HF3 ltac:(discriminate)).
               rewrite skipn_length in HF2, HF3.
               rewrite skipn_skipn in I3. replace (n + S p) with (S (n + p)) in I3 by lia.
               clear Heq. inversion I3 as [r0|x0 q0|e' m q Hm Hq E7 E4 E5]; subst.
               rewrite skipn_length in Hq. rewrite skipn_skipn.
               assert (skipn (n + S q) xs = skipn (S (n + p)) xs) as E6 by (rewrite <- skipn_skipn; exact E4).
               apply (f_equal (@length _)) in E6. rewrite !skipn_length in E6.
               apply lags_behind; lia.
            -- destruct l as [f|e].
               ++ destruct (snd (m_finish M f a2)) as [[]|]; cbn [map_err] in *;
                    destruct IH as (sp' & sc' & p'' & I1 & I2 & I3 & I4); exists sp', sc', p''; splits; auto.
                  ** rewrite I1. do 3 f_equal. lia.
                  ** inversion I3; constructor.
                  ** inversion I3; constructor.
               ++ destruct IH as (sp' & sc' & p'' & I1 & I2 & I3 & I4); exists sp', sc', p''; splits; auto.
                  inversion I3; constructor.
          * assert (HF' : m_feed M (firstn n (firstn limit xs)) a = (a1, n, None)).
            { rewrite firstn_firstn, Nat.min_l by lia. exact HF. }
            assert (Hnl' : n <= length (firstn limit xs)) by (rewrite firstn_length; lia).
            rewrite (m_feed_prefix_ok n Hnl' HF').
            assert (Hsk : skipn n (firstn limit xs) = firstn (limit - n) (skipn n xs)).
            { rewrite firstn_skipn_comm. f_equal. f_equal. lia. }
            rewrite Hsk.
            destruct (m_feed M (firstn (limit - n) (skipn n xs)) a1) as [[a2 p] [e|]] eqn:HF2.
            -- destruct IH as (sp' & sc' & p'' & I1 & I2 & I3 & I4). exists sp', sc', p''. splits; auto.
               apply m_feed_count in HF2 as (HF2 & _ & HF3). specialize (HF3 ltac:(discriminate)).
               rewrite firstn_length, skipn_length in HF2, HF3.
               rewrite skipn_skipn in I3. replace (n + S p) with (S (n + p)) in I3 by lia.
               clear Heq. inversion I3 as [r0|x0 q0|e' m q Hm Hq E7 E4 E5]; subst.
               rewrite skipn_length in Hq. rewrite skipn_skipn.
               assert (skipn (n + S q) xs = skipn (S (n + p)) xs) as E6 by (rewrite <- skipn_skipn; exact E4).
               apply (f_equal (@length _)) in E6. rewrite !skipn_length in E6.
               apply lags_behind; lia.
            -- destruct IH as (sp' & sc' & p'' & I1 & I2 & I3 & I4). exists sp', sc', p''.
               rewrite skipn_skipn in I3. replace (n + (limit - n)) with limit in I3 by lia.
               splits; auto.
               ++ rewrite I1. do 3 f_equal. lia.
               ++ inversion I3; constructor.
        + assert (HE : m_feed M xs a = (a1, n, Some e)) by (exact (m_feed_prefix_err limit HF)).
          assert (HL : forall X, lags xs l (@Err X _ (PipeConsumer e)) (PActive (skipn (S n) xs) l 0) (PActive xs l 0)).
          { intros X. change xs with (skipn 0 xs) at 3. apply lags_behind; lia. }
          destruct (Nat.ltb_spec (length xs) limit) as [Hx|Hx].
          * unfold pipe_effect. rewrite HE. exists sp1, sc1, (PActive xs l 0). splits; auto. exact (lp_forget LP HP1).
          * rewrite HF. exists sp1, sc1, (PActive xs l 0). splits; auto. exact (lp_forget LP HP1). }
    intros fuel count xs sp l k sc a kc w HP HC Hf.
    specialize (H fuel count 0 xs _ _ _ _ _ _ _ HP HC ltac:(lia) ltac:(lia)).
    rewrite Nat.sub_0_r in H. unfold bulk_pipe_at_most.
    destruct (pipe_at_most_effect M count xs l a) as [[p' c'] [n|e]]; exact H.
  Qed.

  Lemma bulk_pipe_at_most_clean : forall fuel count xs sp l k sc a kc w a' n e,
    clean_bulk C M RC ->
    RP sp xs l k -> RC sc a kc w -> count < fuel ->
    m_feed M (firstn count xs) a = (a', n, Some e) ->
    exists sp' sc', bulk_pipe_at_most fuel P C count sp sc = Ret (sp', sc', Err (PipeConsumer e)) /\
      RP sp' (skipn n xs) l 0 /\ DC sc' a'.
  Proof.
    assert (H : forall fuel count piped xs sp l k sc a kc w a' m err,
      clean_bulk C M RC -> RP sp xs l k -> RC sc a kc w -> piped <= count -> count - piped < fuel ->
      m_feed M (firstn (count - piped) xs) a = (a', m, Some err) ->
      exists sp' sc', bulk_pipe_at_most_loop fuel P C count piped sp sc = Ret (sp', sc', Err (PipeConsumer err)) /\
        RP sp' (skipn m xs) l 0 /\ DC sc' a').
    { induction fuel as [|fuel IH]; intros count piped xs sp l k sc a kc w a' m err CL HP HC Hpc Hf HM; [lia|].
      cbn [bulk_pipe_at_most_loop].
      destruct (Nat.ltb_spec piped count) as [Hlt|Hge].
      2:{ replace (count - piped) with 0 in HM by lia. discriminate. }
      assert (Hne : xs <> []) by (intros ->; rewrite firstn_nil in HM; discriminate).
      remember (count - piped) as limit eqn:Hlim.
      destruct (@bulk_round _ _ _ _ _ _ _ _ limit HP HC Hne) as (sp1 & ys & rest & E1 & Heq & Hys & HP1 & H); [lia|].
      rewrite E1. cbn [bind]. rewrite csub_ok by lia. cbn [bind]. rewrite <- Hlim.
      rewrite slice_to_ok by lia. cbn [bind].
      destruct H as [(sc1 & a1 & n & sp2 & E2 & Hn1 & Hnl & Hn2 & HF & HC1 & E3 & HP2)|(sc1 & a1 & n & e & E2 & Hn1 & Hn2 & HF & HD)];
        rewrite E2; cbn [bind].
      - rewrite E3. cbn [bind].
        assert (HF' : m_feed M (firstn n (firstn limit xs)) a = (a1, n, None)).
        { rewrite firstn_firstn, Nat.min_l by lia. exact HF. }
        assert (Hnl' : n <= length (firstn limit xs)) by (rewrite firstn_length; lia).
        rewrite (m_feed_prefix_ok n Hnl' HF') in HM.
        assert (Hsk : skipn n (firstn limit xs) = firstn (count - (piped + n)) (skipn n xs)).
        { rewrite firstn_skipn_comm. f_equal. f_equal. lia. }
        rewrite Hsk in HM. clear Hsk.
        destruct (m_feed M (firstn (count - (piped + n)) (skipn n xs)) a1) as [[a2 p] e2] eqn:HF2. injection HM as -> <- ->.
        destruct (IH count (piped + n) (skipn n xs) _ _ _ _ _ _ _ _ _ _ CL HP2 HC1 ltac:(lia) ltac:(lia) HF2) as (sp' & sc' & I1 & I2 & I3).
        exists sp', sc'. splits; auto. now rewrite skipn_skipn in I2.
      - rewrite HM in HF. injection HF as -> -> ->.
        destruct ys as [|y ys]; [congruence|].
        remember (Nat.min limit (length (y :: ys))) as j eqn:Hj. destruct j as [|j]; [cbn [length] in Hj; lia|].
        cbn [firstn] in E2. pose proof (CL _ _ _ _ _ _ _ _ HC E2) as Hy.
        subst xs. destruct limit as [|limit]; [lia|]. cbn in HM. destruct (m_step M y a) as [a2 [|]]; cbn in Hy; [discriminate|].
        injection HM as <- <- _. exists sp1, sc1. splits; auto. exact (lp_forget LP HP1). }
    intros fuel count xs sp l k sc a kc w a' n e CL HP HC Hf HM.
    eapply H; eauto; try lia. now rewrite Nat.sub_0_r.
  Qed.

  (** ** Full-slice helpers *)

  Lemma consume_full_slice_lawful : forall buf sc a k w,
    RC sc a k w ->
    match full_slice_effect M buf a with
    | (c', r) => exists sc', consume_full_slice C buf sc = Ret (sc', r) /\ c_rel RC DC sc' c'
    end.
  Proof.
    assert (H : forall buf i sc a k w, RC sc a k w ->
      match m_feed M buf a with
      | (a', _, None) => exists sc', consume_full_slice_from C i buf sc = Ret (sc', Ok tt) /\ RC sc' a' 0 []
      | (a', n, Some e) => exists sc', consume_full_slice_from C i buf sc = Ret (sc', Err (mk_cale (i + n) e)) /\ DC sc' a'
      end).
    { induction buf as [|x buf IH]; intros i sc a k w HC; cbn [m_feed consume_full_slice_from].
      - exists sc. split; auto. exact (lc_forget LC HC).
      - destruct (lc_consume LC x HC) as (sc1 & E1 & HC1). rewrite E1. cbn [bind].
        destruct (m_step M x a) as [a1 [[]|e]]; cbn [snd].
        + specialize (IH (i + 1) _ _ _ _ HC1). destruct (m_feed M buf a1) as [[a2 n] [e|]]; auto.
          replace (i + S n) with (i + 1 + n) by lia. exact IH.
        + exists sc1. rewrite Nat.add_0_r. auto. }
    intros buf sc a k w HC. specialize (H buf 0 _ _ _ _ HC). unfold full_slice_effect, consume_full_slice.
    destruct (m_feed M buf a) as [[a' n] [e|]]; exact H.
  Qed.

  (** The count reported by the bulk variant never exceeds the number of items accepted,
      and equals it for consumers that accept what they expose. *)
  Lemma bulk_consume_full_slice_lawful : forall fuel buf sc a k w,
    RC sc a k w -> length buf < fuel ->
    match m_feed M buf a with
    | (a', _, None) => exists sc', bulk_consume_full_slice fuel C buf sc = Ret (sc', Ok tt) /\ RC sc' a' 0 []
    | (a', n, Some e) => exists sc' m, bulk_consume_full_slice fuel C buf sc = Ret (sc', Err (mk_cale m e)) /\
        DC sc' a' /\ m <= n /\ (clean_bulk C M RC -> m = n)
    end.
  Proof.
    assert (H : forall fuel i buf sc a k w, RC sc a k w -> i <= length buf -> length buf - i < fuel ->
      match m_feed M (skipn i buf) a with
      | (a', _, None) => exists sc', bulk_consume_full_slice_loop fuel C i buf sc = Ret (sc', Ok tt) /\ RC sc' a' 0 []
      | (a', n, Some e) => exists sc' m, bulk_consume_full_slice_loop fuel C i buf sc = Ret (sc', Err (mk_cale m e)) /\
          DC sc' a' /\ m <= i + n /\ (clean_bulk C M RC -> m = i + n)
      end).
    { induction fuel as [|fuel IH]; intros i buf sc a k w HC Hi Hf; [lia|]. cbn [bulk_consume_full_slice_loop].
      destruct (Nat.ltb_spec i (length buf)) as [Hlt|Hge].
      2:{ rewrite skipn_all2 by lia. cbn. exists sc. split; auto. exact (lc_forget LC HC). }
      rewrite slice_from_ok by lia. cbn [bind].
      assert (Hlen : length (skipn i buf) = length buf - i) by apply skipn_length.
      assert (Hne : skipn i buf <> []) by (intros H; rewrite H in Hlen; cbn in Hlen; lia).
      destruct (lc_bulk LC _ HC Hne) as [(sc1 & n & a1 & E1 & Hn & HF & HC1)|(sc1 & n & e & a1 & E1 & HF & HD)];
        rewrite E1; cbn [bind].
      - rewrite Hlen in Hn. specialize (IH (i + n) buf _ _ _ _ HC1 ltac:(lia) ltac:(lia)).
        rewrite <- skipn_skipn in IH.
        assert (Hn' : n <= length (skipn i buf)) by lia. rewrite (m_feed_prefix_ok n Hn' HF).
        destruct (m_feed M (skipn n (skipn i buf)) a1) as [[a2 p] [e|]]; auto.
        replace (i + (n + p)) with (i + n + p) by lia. exact IH.
      - rewrite HF. exists sc1, i. splits; auto; [lia|]. intros CL.
        destruct (skipn i buf) as [|x rest]; [congruence|]. pose proof (CL _ _ _ _ _ _ _ _ HC E1) as Hx.
        cbn in HF. destruct (m_step M x a) as [a2 [|]]; cbn in Hx; [discriminate|]. injection HF as _ <- _. lia. }
    intros fuel buf sc a k w HC Hf. specialize (H fuel 0 buf _ _ _ _ HC ltac:(lia) ltac:(lia)). exact H.
  Qed.

  Lemma overwrite_full_slice_lawful : forall buf sp xs l k,
    RP sp xs l k ->
    match overwrite_effect xs l buf with
    | (p', buf', r) => exists sp', overwrite_full_slice P buf sp = Ret (sp', (buf', r)) /\ p_rel RP DP sp' p'
    end.
  Proof.
    assert (HE : forall n sp xs l k, RP sp xs l k -> n <= length xs ->
      exists sp' k', emits P sp (firstn n xs) sp' /\ RP sp' (skipn n xs) l k').
    { induction n as [|n IH]; intros sp xs l k HP Hn.
      - exists sp, k. split; [constructor|exact HP].
      - destruct xs as [|x xs]; [cbn in Hn; lia|]. cbn in Hn.
        destruct (lp_produce LP HP) as (sp1 & E1 & HP1).
        destruct (IH _ _ _ _ HP1 ltac:(lia)) as (sp' & k' & H1 & H2).
        exists sp', k'. split; [econstructor; eauto|exact H2]. }
    intros buf sp xs l k HP. unfold overwrite_effect, overwrite_full_slice.
    destruct (Nat.leb_spec (length buf) (length xs)) as [Hle|Hgt].
    - destruct (HE (length buf) _ _ _ _ HP Hle) as (sp' & k' & H1 & H2). exists sp'. split; [|exact (lp_forget LP H2)].
      apply (@overwrite_from _ _ _ _ P (length buf) [] buf sp eq_refl).
      exists (firstn (length buf) xs). splits; auto. rewrite firstn_length. lia.
    - destruct (HE (length xs) _ _ _ _ HP (le_n _)) as (sp1 & k' & H1 & H2).
      rewrite firstn_all in H1. rewrite skipn_all in H2.
      destruct (lp_produce_last LP H2) as (sp' & E1 & HD). exists sp'. split; [|exact HD].
      apply (@overwrite_from _ _ _ _ P (length buf) [] buf sp eq_refl).
      exists xs, sp1. splits; auto. rewrite E1. destruct l; reflexivity.
  Qed.

  Lemma bulk_overwrite_full_slice_lawful : forall fuel buf sp xs l k,
    RP sp xs l k -> length buf < fuel ->
    match overwrite_effect xs l buf with
    | (p', buf', r) => exists sp', bulk_overwrite_full_slice fuel P buf sp = Ret (sp', (buf', r)) /\ p_rel RP DP sp' p'
    end.
  Proof.
    assert (H : forall fuel done buf sp xs l k, RP sp xs l k -> length buf < fuel ->
      match overwrite_effect xs l buf with
      | (p', buf', r) => exists sp',
          bulk_overwrite_full_slice_loop fuel P (length done) (done ++ buf) sp =
            Ret (sp', (done ++ buf', match r with Ok u => Ok u | Err (mk_pale n q) => Err (mk_pale (length done + n) q) end)) /\
          p_rel RP DP sp' p'
      end).
    { unfold overwrite_effect.
      induction fuel as [|fuel IH]; intros done buf sp xs l k HP Hf; [lia|]. cbn [bulk_overwrite_full_slice_loop].
      rewrite app_length. destruct buf as [|b0 buf0].
      - cbn [length]. destruct (Nat.ltb_spec (length done) (length done + 0)); [lia|].
        destruct (Nat.leb_spec 0 (length xs)); [|lia]. exists sp. split; auto. exact (lp_forget LP HP).
      - remember (b0 :: buf0) as buf eqn:Hb.
        assert (Hne : buf <> []) by (subst; discriminate).
        assert (Hlb : 1 <= length buf) by (subst; cbn; lia). clear b0 buf0 Hb.
        destruct (Nat.ltb_spec (length done) (length done + length buf)); [|lia].
        rewrite slice_from_ok by (rewrite app_length; lia).
        rewrite skipn_app, skipn_all, Nat.sub_diag. cbn [bind skipn app].
        rewrite firstn_app, firstn_all, Nat.sub_diag, app_nil_r.
        pose proof (lp_bulk LP buf HP Hne) as HB. destruct xs as [|x0 xs0].
        + destruct HB as (sp1 & E1 & HD). rewrite E1. cbn [bind length].
          destruct (Nat.leb_spec (length buf) 0); [lia|].
          exists sp1. split; [|exact HD]. rewrite Nat.add_0_r. destruct l; reflexivity.
        + destruct HB as (sp1 & n & E1 & Hn & Hnx & HP1). remember (x0 :: xs0) as xs eqn:Hxs. clear x0 xs0 Hxs.
          rewrite E1. cbn [bind].
          specialize (IH (done ++ firstn n xs) (skipn n buf) sp1 (skipn n xs) l _ HP1).
          rewrite !app_length, firstn_length, Nat.min_l, <- app_assoc, !skipn_length in IH by lia.
          specialize (IH ltac:(lia)).
          destruct (Nat.leb_spec (length buf - n) (length xs - n)), (Nat.leb_spec (length buf) (length xs)); try lia;
            destruct IH as (sp' & I1 & I2); exists sp'; rewrite I1; split.
          * rewrite <- app_assoc. do 4 f_equal. rewrite firstn_skipn_comm.
            replace (n + (length buf - n)) with (length buf) by lia.
            replace (firstn n xs) with (firstn n (firstn (length buf) xs)) by (rewrite firstn_firstn; f_equal; lia).
            apply firstn_skipn.
          * rewrite skipn_skipn in I2. replace (n + (length buf - n)) with (length buf) in I2 by lia. exact I2.
          * do 3 f_equal.
            -- rewrite <- app_assoc. f_equal. rewrite app_assoc, firstn_skipn, skipn_skipn. f_equal. f_equal. lia.
            -- f_equal. f_equal. lia.
          * exact I2. }
    intros fuel buf sp xs l k HP Hf. specialize (H fuel [] buf _ _ _ _ HP Hf).
    unfold bulk_overwrite_full_slice. destruct (overwrite_effect xs l buf) as [[p' buf'] [u|[n q]]]; exact H.
  Qed.
End Lawful.

(** Proofs about the exact specifications of [bulk_consume_full_slice] and of [slurp] behind [Limit]. *)
From Coq Require Import Bool List Arith Lia.
From Verif Require Import Prelude ListFacts Traits Contracts ContractFacts BasicModel BasicProofs PipeSpec PipeProofs
  AdaptorModel AdaptorSpec AdaptorProofs ExactSpec.
Import ListNotations.
Set Implicit Arguments.

Section BulkCount.
  Context {S T F E : Type} (C : bulk_consumer S T F E).

  Lemma bulk_loop_sound : forall fuel i buf s s' r,
    bulk_consume_full_slice_loop fuel C i buf s = Ret (s', r) ->
    match r with
    | Ok _ => exists n, bulk_accepts C s (skipn i buf) n s' /\ length buf <= i + n
    | Err err => exists n s1, cale_count err = i + n /\ i + n < length buf /\
        bulk_accepts C s (skipn i buf) n s1 /\
        c_bulk_consume C (skipn (i + n) buf) s1 = Ret (s', Err (cale_reason err))
    end.
  Proof.
    induction fuel as [|fuel IH]; intros i buf s s' r H; [discriminate|]. cbn [bulk_consume_full_slice_loop] in H.
    destruct (Nat.ltb_spec i (length buf)) as [Hi|Hi].
    2:{ injection H as <- <-. exists 0. split; [constructor|lia]. }
    rewrite slice_from_ok in H by lia. cbn [bind] in H.
    assert (Hne : skipn i buf <> []).
    { intros E0. assert (length (skipn i buf) = 0) by now rewrite E0. rewrite skipn_length in *. lia. }
    destruct (c_bulk_consume C (skipn i buf) s) as [[s1 [m|e]]| |] eqn:E1; try discriminate; cbn [bind] in H.
    - apply IH in H. rewrite <- skipn_skipn in H. destruct r as [u|err].
      + destruct H as (n & Ha & Hn). exists (m + n). split; [econstructor; eauto|lia].
      + destruct H as (n & s2 & H1 & H2 & H3 & H4). exists (m + n), s2. splits; try lia.
        * econstructor; eauto.
        * now rewrite Nat.add_assoc.
    - injection H as <- <-. exists 0, s. cbn [cale_count cale_reason]. rewrite Nat.add_0_r. splits; auto. constructor.
  Qed.

  Lemma bulk_loop_ok : forall xs n s s', bulk_accepts C s xs n s' ->
    forall i buf, xs = skipn i buf -> length buf <= i + n ->
    exists fuel, bulk_consume_full_slice_loop fuel C i buf s = Ret (s', Ok tt).
  Proof.
    induction 1 as [s xs|s xs m s1 n s' Hne E1 _ IH]; intros i buf -> Hn.
    - exists 1. cbn. destruct (Nat.ltb_spec i (length buf)); [lia|reflexivity].
    - destruct (IH (i + m) buf) as [fuel Hf]; [now rewrite skipn_skipn|lia|].
      exists (Datatypes.S fuel). cbn [bulk_consume_full_slice_loop].
      destruct (Nat.ltb_spec i (length buf)); [|now rewrite skipn_all2 in Hne by lia].
      rewrite slice_from_ok by lia. cbn [bind]. now rewrite E1.
  Qed.

  Lemma bulk_loop_err : forall xs n s s1, bulk_accepts C s xs n s1 ->
    forall i buf s' e, xs = skipn i buf -> i + n < length buf ->
    c_bulk_consume C (skipn (i + n) buf) s1 = Ret (s', Err e) ->
    exists fuel, bulk_consume_full_slice_loop fuel C i buf s = Ret (s', Err (mk_cale (i + n) e)).
  Proof.
    induction 1 as [s xs|s xs m s1 n s2 Hne E1 _ IH]; intros i buf s' e -> Hn E2.
    - exists 1. rewrite Nat.add_0_r in *. cbn. destruct (Nat.ltb_spec i (length buf)); [|lia].
      rewrite slice_from_ok by lia. cbn [bind]. now rewrite E2.
    - destruct (IH (i + m) buf s' e) as [fuel Hf]; [now rewrite skipn_skipn|lia|now rewrite <- Nat.add_assoc|].
      exists (Datatypes.S fuel). cbn [bulk_consume_full_slice_loop].
      destruct (Nat.ltb_spec i (length buf)); [|lia].
      rewrite slice_from_ok by lia. cbn [bind]. rewrite E1. cbn [bind]. now rewrite Nat.add_assoc.
  Qed.

  Lemma bulk_full_slice_iff : forall buf s s' r,
    (exists fuel, bulk_consume_full_slice fuel C buf s = Ret (s', r)) <->
    match r with
    | Ok _ => exists n, bulk_accepts C s buf n s' /\ length buf <= n
    | Err err => exists s1, bulk_accepts C s buf (cale_count err) s1 /\ cale_count err < length buf /\
        c_bulk_consume C (skipn (cale_count err) buf) s1 = Ret (s', Err (cale_reason err))
    end.
  Proof.
    intros buf s s' r. split.
    - intros [fuel H]. apply bulk_loop_sound in H. cbn [skipn] in H. destruct r as [u|err].
      + exact H.
      + destruct H as (n & s1 & H1 & H2 & H3 & H4). cbn in H1, H2, H4. rewrite <- H1 in *. now exists s1.
    - destruct r as [[]|[n e]]; cbn [cale_count cale_reason].
      + intros (n & H1 & H2). exact (bulk_loop_ok H1 0 buf eq_refl H2).
      + intros (s1 & H1 & H2 & H3). exact (bulk_loop_err H1 0 buf eq_refl H2 H3).
  Qed.

  (** For lawful consumers, the calls that succeed consume exactly what they report. *)
  Context {A : Type} {M : machine A T F E} {R : S -> A -> nat -> list T -> Prop} {D : S -> A -> Prop}
    (L : lawful_consumer C M R D).

  Lemma bulk_accepts_lawful : forall xs n s s', bulk_accepts C s xs n s' ->
    forall a k w, R s a k w ->
    n <= length xs /\ exists a' k' w', m_feed M (firstn n xs) a = (a', n, None) /\ R s' a' k' w'.
  Proof.
    induction 1 as [s xs|s xs m s1 n s' Hne E1 _ IH]; intros a k w HR.
    - split; [lia|]. exists a, k, w. auto.
    - destruct (lc_bulk L xs HR Hne) as [(s2 & m' & a1 & E2 & Hm & HF & HR1)|(s2 & m' & e & a1 & E2 & _)];
        rewrite E2 in E1; [|discriminate]. injection E1 as <- <-.
      destruct (IH _ _ _ HR1) as (Hn & a' & k' & w' & HF' & HR'). rewrite skipn_length in Hn. split; [lia|].
      exists a', k', w'. split; [|exact HR'].
      replace (firstn (m' + n) xs) with (firstn m' xs ++ firstn n (skipn m' xs)) by now rewrite firstn_app_skipn.
      revert HF HF'. generalize (firstn m' xs), (firstn n (skipn m' xs)). clear. intros l1 l2. revert m' a.
      induction l1 as [|x l1 IH]; intros m' a H1 H2; cbn in *.
      + injection H1 as <- <-. exact H2.
      + destruct (m_step M x a) as [a2 [|]]; [|discriminate].
        destruct (m_feed M l1 a2) as [[a3 p] [|]] eqn:E1; [discriminate|]. injection H1 as -> <-.
        now rewrite (IH _ _ E1 H2).
  Qed.

  Lemma bulk_count_exact : forall fuel buf s a k w,
    R s a k w -> length buf < fuel ->
    match m_feed M buf a with
    | (a', n, Some e) => exists s1 s' m a1 k1 w1,
        bulk_consume_full_slice fuel C buf s = Ret (s', Err (mk_cale m e)) /\ D s' a' /\
        bulk_accepts C s buf m s1 /\ c_bulk_consume C (skipn m buf) s1 = Ret (s', Err e) /\ R s1 a1 k1 w1 /\
        m_feed M (firstn m buf) a = (a1, m, None) /\
        m <= n /\ m_feed M (skipn m buf) a1 = (a', n - m, Some e)
    | (a', _, None) => exists s',
        bulk_consume_full_slice fuel C buf s = Ret (s', Ok tt) /\ R s' a' 0 []
    end.
  Proof.
    intros fuel buf s a k w HR Hf.
    pose proof (@bulk_consume_full_slice_lawful _ _ _ _ _ _ _ _ _ L fuel buf s a k w HR Hf) as H.
    destruct (m_feed M buf a) as [[a' n] [e|]] eqn:EF; [|exact H].
    destruct H as (s' & m & E1 & HD & Hm & _).
    destruct (proj1 (@bulk_full_slice_iff buf s s' (Err (mk_cale m e)))) as (s1 & H1 & H2 & H3); [eauto|].
    cbn [cale_count cale_reason] in *.
    destruct (bulk_accepts_lawful H1 HR) as (_ & a1 & k1 & w1 & HF & HR1).
    exists s1, s', m, a1, k1, w1. splits; auto.
    assert (Hl : m <= length buf) by lia. rewrite (m_feed_prefix_ok m Hl HF) in EF.
    destruct (m_feed M (skipn m buf) a1) as [[a2 p] [e2|]]; [|discriminate]. injection EF as -> <- ->.
    f_equal. f_equal. lia.
  Qed.
End BulkCount.

(** ** [slurp] behind [Limit] *)
Lemma limit_conforms_leaking :
  forall (S T F E : Type) (P : bulk_producer S T F E) R D s xs l k n (ops : list (pop T)),
  lawful_producer_core P R D -> lawful_slurp P R D -> R s xs l k ->
  p_conforms_leaking (limit_producer P) (limit_leak n xs l) (fun s' => D (lim_inner s')) ops
    (limit_new s n) (PActive (firstn n xs) (limit_last n xs l) 0).
Proof.
  intros S T F E P R D s xs l k n ops L LS HR.
  assert (H : forall ops s a, p_rel (lim_rel R xs l n) (lim_end R D xs l n) s a ->
    p_conforms_leaking (limit_producer P) (limit_leak n xs l) (fun s' => D (lim_inner s')) ops s a).
  2:{ apply H. cbn. eapply lim_rel_new; exact HR. }
  clear ops s k HR. induction ops as [|o ops IH]; intros s a HR; [constructor|].
  destruct (p_permitted_dec a o) as [HP|HP]; [|now constructor].
  assert (Hstep : o <> PSlurp \/ o = PSlurp) by (destruct o; auto; left; discriminate).
  destruct Hstep as [Ho| ->].
  - destruct (@lawful_p_step _ _ _ _ (limit_producer P) _ _ o s a (limit_lawful xs l n L) (or_intror Ho) HR HP)
      as (s' & r & a' & E1 & HA & HR').
    eapply leaking_step; eauto.
  - destruct a as [ys l' k|]; [|destruct HP]. destruct s as [i r].
    pose proof HR as HR0. destruct HR as (ki & HR & H1 & H2 & Hx & Hl & H3 & H4). cbn in HR, H1, H2, Hx, H4.
    destruct (LS _ _ _ _ HR) as [(i' & E1 & HR')|(i' & e & E1 & Es & El & HD)].
    + eapply leaking_step with (s' := mk_limit i' r) (r := PAUnit (Ok tt)) (a' := PActive ys l' k); auto.
      * cbn. unfold limit_slurp. cbn. now rewrite E1.
      * cbn. auto.
      * apply IH. exists ki. cbn. splits; auto.
    + assert (Hlen : length (skipn (n - r) xs) = 0) by now rewrite Es. rewrite skipn_length in Hlen.
      rewrite Es, firstn_nil in Hx. subst ys.
      assert (Es' : p_slurp (limit_producer P) (mk_limit i r) = Ret (mk_limit i' r, Err e)).
      { cbn. unfold limit_slurp. cbn. now rewrite E1. }
      destruct (Nat.eq_dec (length xs) n) as [He|He].
      * eapply leaking_slurp with (e := e); [|exact Es'|exact HD].
        unfold limit_leak. rewrite He, Nat.eqb_refl. now rewrite El.
      * eapply leaking_step with (s' := mk_limit i' r) (r := PAUnit (Err e)) (a' := PEnded); auto.
        -- cbn [p_do]. now rewrite Es'.
        -- cbn. right. exists e. subst l'. unfold limit_last. destruct (Nat.ltb_spec (length xs) n); [|lia].
           rewrite El. auto.
        -- apply IH. cbn. unfold lim_end. destruct (Nat.ltb_spec (length xs) n); [exact HD|lia].
Qed.

(** Without a possible leak, that is the documented contract. *)
Lemma leaking_none : forall (S T F E : Type) (P : bulk_producer S T F E) Ended ops s a,
  p_conforms_leaking P None Ended ops s a <-> p_conforms P ops s a.
Proof.
  intros S T F E P Ended ops s a. split; induction 1; try discriminate.
  - constructor.
  - now constructor.
  - eapply p_conforms_step; eauto.
  - constructor.
  - now constructor.
  - eapply leaking_step; eauto.
Qed.

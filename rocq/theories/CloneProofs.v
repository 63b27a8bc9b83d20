(** Proofs about code that clones items. *)
From Coq Require Import Bool List Arith Lia.
From Verif Require Import Prelude ListFacts QueueModel QueueSpec QueueProofs Traits Contracts ContractFacts
  BasicModel BasicSpec BasicProofs CloneModel CloneSpec.
Import ListNotations.
Set Implicit Arguments.

Section Facts.
  Context {W T : Type} (clone : T -> W -> W * option T).

  Lemma clone_each_true : forall xs w w' ys,
    clone_each clone xs w = (w', (ys, true)) -> clones clone xs w ys w'.
  Proof.
    induction xs as [|x xs IH]; cbn; intros w w' ys H.
    - injection H as <- <-. constructor.
    - destruct (clone x w) as [w1 [y|]] eqn:E; [|discriminate].
      destruct (clone_each clone xs w1) as [w2 [zs b]] eqn:E2. injection H as <- <- ->.
      econstructor; eauto.
  Qed.

  Lemma clone_each_false : forall xs w w' ys,
    clone_each clone xs w = (w', (ys, false)) -> breaks clone xs w ys w'.
  Proof.
    induction xs as [|x xs IH]; cbn; intros w w' ys H; [discriminate|].
    destruct (clone x w) as [w1 [y|]] eqn:E.
    - destruct (clone_each clone xs w1) as [w2 [zs b]] eqn:E2. injection H as <- <- ->.
      econstructor; eauto.
    - injection H as <- <-. now constructor.
  Qed.

  Lemma clones_length : forall xs w ys w', clones clone xs w ys w' -> length ys = length xs.
  Proof. induction 1; cbn; auto. Qed.

  Lemma breaks_length : forall xs w ys w', breaks clone xs w ys w' -> length ys < length xs.
  Proof. induction 1; cbn; lia. Qed.

  Lemma clones_app : forall xs1 xs2 w ys1 w1 ys2 w2,
    clones clone xs1 w ys1 w1 -> clones clone xs2 w1 ys2 w2 -> clones clone (xs1 ++ xs2) w (ys1 ++ ys2) w2.
  Proof. induction 1; cbn; intros; [assumption|econstructor; eauto]. Qed.

  Lemma breaks_app : forall xs1 xs2 w ys1 w1 ys2 w2,
    clones clone xs1 w ys1 w1 -> breaks clone xs2 w1 ys2 w2 -> breaks clone (xs1 ++ xs2) w (ys1 ++ ys2) w2.
  Proof. induction 1; cbn; intros; [assumption|econstructor; eauto]. Qed.

  Lemma breaks_more : forall xs w ys w' zs, breaks clone xs w ys w' -> breaks clone (xs ++ zs) w ys w'.
  Proof. induction 1; cbn; [now constructor|econstructor; eauto]. Qed.

  Lemma clones_det : forall xs w ys w', clones clone xs w ys w' ->
    forall ys2 w2, clones clone xs w ys2 w2 -> ys2 = ys /\ w2 = w'.
  Proof.
    induction 1 as [|x xs w w1 w' y ys H1 H2 IH]; intros ys2 w2 H.
    - inversion H; auto.
    - inversion H as [|x0 xs0 v v1 v' z zs H3 H4]; subst. rewrite H1 in H3. injection H3 as <- <-.
      destruct (IH _ _ H4) as [-> ->]. auto.
  Qed.

  Lemma clones_not_breaks : forall xs w ys w', clones clone xs w ys w' ->
    forall ys2 w2, ~ breaks clone xs w ys2 w2.
  Proof.
    induction 1 as [|x xs w w1 w' y ys H1 H2 IH]; intros ys2 w2 H; [inversion H|].
    inversion H as [x0 xs0 v v' H3|x0 xs0 v v1 v' z zs H3 H4]; subst; [congruence|].
    rewrite H1 in H3. injection H3 as <- <-. exact (IH _ _ H4).
  Qed.

  Lemma clones_or_breaks : forall xs w,
    (exists ys w', clones clone xs w ys w') \/ (exists ys w', breaks clone xs w ys w').
  Proof.
    intros xs w. destruct (clone_each clone xs w) as [w' [ys []]] eqn:E.
    - left. exists ys, w'. now apply clone_each_true.
    - right. exists ys, w'. now apply clone_each_false.
  Qed.

  Lemma clones_prefix : forall n xs w ys w', clones clone xs w ys w' ->
    exists w1, clones clone (firstn n xs) w (firstn n ys) w1 /\ clones clone (skipn n xs) w1 (skipn n ys) w'.
  Proof.
    intros n xs w ys w' H. revert n. induction H as [|x xs w w1 w' y ys H1 H2 IH]; intros [|n]; cbn.
    - exists w. split; constructor.
    - exists w. split; constructor.
    - exists w. split; [constructor|econstructor; eauto].
    - destruct (IH n) as (w2 & H3 & H4). exists w2. split; [econstructor; eauto|assumption].
  Qed.

  Lemma firstn_breaks : forall n xs w ys w', breaks clone (firstn n xs) w ys w' -> breaks clone xs w ys w'.
  Proof. intros n xs w ys w' H. rewrite <- (firstn_skipn n xs). now apply breaks_more. Qed.
End Facts.

(** ** Queues *)
Section Queues.
  Context {W T Q : Type} (clone : T -> W -> W * option T) (I : queue Q T) (c : nat)
    (R : Q -> list T -> nat -> list T -> Prop)
    (deq : Q -> W -> outcome (Q * W * caught (option T))).

  (** A cloning [dequeue] is the plain one followed by the clone. *)
  Definition deq_clones : Prop := forall q w,
    deq q w = let* (q', o) := q_dequeue I q in
      match o with
      | None => Ret (q', w, Done None)
      | Some x => match clone x w with
                  | (w', Some y) => Ret (q', w', Done (Some y))
                  | (w', None) => Ret (q', w', Unwound)
                  end
      end.

  Hypothesis L : lawful_queue I c R.
  Hypothesis HDEQ : deq_clones.

  Lemma bulk_enqueue_cloning_step : forall q items k v buf w, R q items k v ->
    exists q' w' r a', u_do clone I deq (OpBulkEnqueue buf) q w = Ret (q', w', r) /\
      u_answer clone c (mk_qabs items k v) w (OpBulkEnqueue buf) r a' w' /\
      R q' (qa_items a') (qa_slots a') (qa_written a').
  Proof.
    intros q items k v buf w HR. cbn [u_do]. unfold q_bulk_enqueue_cloning.
    destruct (lq_wf L HR) as (Hc & Hk & Hv).
    destruct (Nat.eq_dec (length items) c) as [E|E].
    - rewrite (lq_expose_slots_full L HR E). cbn [bind].
      exists q, w, (UAns (ANat 0)), (mk_qabs (items ++ []) 0 []). split; [reflexivity|].
      split; [|cbn; rewrite app_nil_r; exact (lq_forget L HR)].
      cbn. splits; try lia; try tauto. exists []. split; [constructor|reflexivity].
    - destruct (lq_expose_slots L HR) as (q1 & n & E1 & Hn1 & Hn2 & HR1); [lia|].
      rewrite E1. cbn [bind]. set (m := Nat.min n (length buf)).
      destruct (clone_each clone (firstn m buf) w) as [w' [ys b]] eqn:Ec. destruct b.
      + apply clone_each_true in Ec. pose proof (clones_length Ec) as Hl. rewrite firstn_length in Hl.
        pose proof (lq_write L ys HR1 ltac:(lia)) as HR2. rewrite overlay_nil in HR2.
        destruct (lq_consider_enqueued L m HR2 ltac:(lia)) as (q3 & E3 & HR3).
        rewrite E3. cbn [bind]. rewrite firstn_all2 in HR3 by lia.
        exists q3, w', (UAns (ANat m)), (mk_qabs (items ++ ys) 0 []). split; [reflexivity|].
        split; [|cbn; exact (lq_forget L HR3)]. cbn [u_answer qa_items].
        splits; [lia|lia| |exists ys; auto].
        split; [|intros [?| ->]; cbn in *; lia]. intros E0. right. destruct buf; [reflexivity|]. cbn in m. lia.
      + apply clone_each_false in Ec. pose proof (breaks_length Ec) as Hl. rewrite firstn_length in Hl.
        pose proof (lq_write L ys HR1 ltac:(lia)) as HR2.
        exists (q_write I ys q1), w', UUnwound, (mk_qabs items 0 []). split; [reflexivity|].
        split; [|cbn; exact (lq_forget L HR2)]. cbn [u_answer qa_items].
        exists m, ys. splits; auto; lia.
  Qed.

  Lemma bulk_dequeue_cloning_step : forall q items k v buf w, R q items k v ->
    exists q' w' r a', u_do clone I deq (OpBulkDequeue buf) q w = Ret (q', w', r) /\
      u_answer clone c (mk_qabs items k v) w (OpBulkDequeue buf) r a' w' /\
      R q' (qa_items a') (qa_slots a') (qa_written a').
  Proof.
    intros q items k v buf w HR. cbn [u_do]. unfold q_bulk_dequeue_cloning.
    destruct items as [|x0 items0].
    - rewrite (lq_expose_items_empty L HR). cbn [bind].
      exists q, w, (UAns (ABuf buf 0)), (mk_qabs [] k v). split; [reflexivity|]. split; [|exact HR].
      cbn. splits; try lia; try tauto. exists []. splits; [constructor|reflexivity|reflexivity].
    - remember (x0 :: items0) as items eqn:Ei.
      destruct (lq_expose_items L HR) as (q1 & s & rest & E1 & Hs & Hi & HR1); [congruence|].
      rewrite E1. cbn [bind]. set (n := Nat.min (length s) (length buf)).
      assert (Hn : n <= length items) by (rewrite Hi, app_length; lia).
      assert (Hf : firstn n s = firstn n items).
      { rewrite Hi, firstn_app. replace (n - length s) with 0 by lia. cbn. now rewrite app_nil_r. }
      rewrite Hf. destruct (clone_each clone (firstn n items) w) as [w' [ys b]] eqn:Ec. destruct b.
      + apply clone_each_true in Ec. pose proof (clones_length Ec) as Hl. rewrite firstn_length in Hl.
        destruct (lq_consider_dequeued L n HR1 ltac:(lia)) as (q2 & E2 & HR2). rewrite E2. cbn [bind].
        exists q2, w', (UAns (ABuf (overlay ys buf) n)), (mk_qabs (skipn n items) k v).
        split; [reflexivity|]. split; [|exact HR2]. cbn [u_answer qa_items qa_slots qa_written].
        splits; [lia|lia| |].
        * split; [|intros [?| ->]; cbn in *; [congruence|lia]]. intros E0. right.
          destruct buf; [reflexivity|]. destruct s; [congruence|]. cbn in n. lia.
        * exists ys. splits; auto. unfold overlay. do 2 f_equal. lia.
      + apply clone_each_false in Ec.
        exists q1, w', (UUnwoundBuf (overlay ys buf)), (mk_qabs items k v).
        split; [reflexivity|]. split; [|exact HR1]. cbn [u_answer qa_items].
        exists n, ys. splits; auto; lia.
  Qed.

  Lemma u_step : forall q items k v o w, R q items k v -> q_permitted (mk_qabs items k v) o ->
    exists q' w' r a', u_do clone I deq o q w = Ret (q', w', r) /\
      u_answer clone c (mk_qabs items k v) w o r a' w' /\
      R q' (qa_items a') (qa_slots a') (qa_written a').
  Proof.
    intros q items k v o w HR HP.
    assert (G : (forall buf, o <> OpBulkEnqueue buf) -> (forall buf, o <> OpBulkDequeue buf) -> o <> OpDequeue ->
      exists q' w' r a', u_do clone I deq o q w = Ret (q', w', r) /\
      u_answer clone c (mk_qabs items k v) w o r a' w' /\
      R q' (qa_items a') (qa_slots a') (qa_written a')).
    { intros H1 H2 H3. destruct (lawful_step L q items k v o HR HP) as (q' & r & a' & E & HA & HR').
      exists q', w, (UAns r), a'. split; [|split; [|exact HR']].
      - destruct o; try congruence; try solve [exfalso; eapply H1; reflexivity];
          try solve [exfalso; eapply H2; reflexivity]; cbn [u_do]; rewrite E; reflexivity.
      - destruct o; try congruence; try solve [exfalso; eapply H1; reflexivity];
          try solve [exfalso; eapply H2; reflexivity]; cbn [u_answer]; auto. }
    destruct o; try solve [apply G; try intros ?; discriminate].
    - cbn [u_do]. rewrite HDEQ. destruct items as [|x items].
      + rewrite (lq_dequeue_empty L HR). cbn [bind].
        exists q, w, (UAns (AItem None)), (mk_qabs [] k v). cbn. auto.
      + destruct (lq_dequeue L HR) as (q' & E & HR'). rewrite E. cbn [bind].
        destruct (clone x w) as [w' [y|]] eqn:Ec.
        * exists q', w', (UAns (AItem (Some y))), (mk_qabs items k v). cbn. splits; auto. eauto.
        * exists q', w', UUnwound, (mk_qabs items k v). cbn. splits; auto. eauto.
    - now apply bulk_enqueue_cloning_step.
    - now apply bulk_dequeue_cloning_step.
  Qed.

  Lemma q_permitted_dec : forall (a : qabs T) o, q_permitted a o \/ ~ q_permitted a o.
  Proof.
    intros a o. destruct o; cbn; auto.
    - destruct (le_dec (length ys) (qa_slots a)); tauto.
    - destruct (le_dec n (length (qa_written a))); tauto.
    - destruct (le_dec n (length (qa_items a))); tauto.
  Qed.

  Lemma u_lawful_conforms : forall ops q items k v w, R q items k v ->
    u_conforms clone I deq c ops q w (mk_qabs items k v).
  Proof.
    induction ops as [|o ops IH]; intros q items k v w HR; [constructor|].
    destruct (q_permitted_dec (mk_qabs items k v) o) as [HP|HP]; [|now constructor].
    destruct (u_step o w HR HP) as (q' & w' & r & [i' k' v'] & E & HA & HR').
    eapply u_conforms_step; eauto.
  Qed.
End Queues.

Lemma fixed_deq_clones : forall W T (clone : T -> W -> W * option T),
  deq_clones clone (fixed_queue T) (fixed_dequeue_cloning clone).
Proof.
  intros W T clone q w. cbn. unfold fixed_dequeue_cloning, fixed_dequeue.
  destruct (fx_amount q =? 0); [reflexivity|].
  destruct (cmod (fx_read q + 1) (fixed_capacity q)); cbn; try reflexivity.
  destruct (csub (fx_amount q) 1); cbn; try reflexivity.
  destruct (index (fx_read q) (fx_data q)); cbn; reflexivity.
Qed.

Lemma static_deq_clones : forall W T (clone : T -> W -> W * option T) N,
  deq_clones clone (static_queue N) (static_dequeue_cloning clone N).
Proof.
  intros W T clone N q w. cbn. unfold static_dequeue_cloning, static_dequeue.
  destruct (st_amount q =? 0); [reflexivity|].
  destruct (cmod (st_read q + 1) N); cbn; try reflexivity.
  destruct (csub (st_amount q) 1); cbn; try reflexivity.
  destruct (index (st_read q) (st_data q)); cbn; reflexivity.
Qed.

(** Items are conserved, except for those lost by a [dequeue] that panics: a fact about the
    specification. *)
Lemma u_history_conserves : forall W T Q (clone : T -> W -> W * option T) (I : queue Q T) deq c q w a h q' w' a',
  u_history clone I deq c q w a h q' w' a' ->
  length (qa_items a) + list_sum (map (@u_entered T) h) =
  length (qa_items a') + list_sum (map (@u_taken T) h) + list_sum (map (@u_lost T) h).
Proof.
  intros W T Q clone I deq c q w a h q' w' a' H.
  induction H as [|q w a o q1 w1 r a1 h q2 w2 a2 HP HD HA HH IH]; [cbn; lia|].
  cbn [map list_sum fold_right]. change (fold_right Nat.add 0) with list_sum.
  assert (G : length (qa_items a) + u_entered (o, r) = length (qa_items a1) + u_taken (o, r) + u_lost (o, r)).
  { clear HD HH IH. destruct o; destruct r as [[rn|rb|[ry|]|[rm|]|[rl|]|rbf rn|]| |rbf]; cbn in HA, HP; try contradiction;
      repeat match goal with
      | H : _ /\ _ |- _ => destruct H
      | H : exists _, _ |- _ => destruct H
      end; subst; try contradiction; cbn [u_entered u_taken u_lost qa_items];
      repeat match goal with
      | H : clones _ _ _ _ _ |- _ => apply clones_length in H; rewrite firstn_length in H
      | H : qa_items a = _ |- _ => rewrite H; clear H
      end; cbn [length]; rewrite ?app_length, ?skipn_length, ?firstn_length; cbn [length]; try lia. }
  lia.
Qed.

Lemma plain_clone_each : forall T (xs : list T), clone_each plain_clone xs tt = (tt, (xs, true)).
Proof. induction xs as [|x xs IH]; cbn; [reflexivity|]. now rewrite IH. Qed.

(** With the identity for [clone], the calls are those of the plain model. *)
Lemma u_do_plain : forall T Q (I : queue Q T) deq,
  deq_clones plain_clone I deq -> forall o q,
  u_do plain_clone I deq o q tt =
    let* (q', r) := q_do I o q in Ret (q', tt, UAns r).
Proof.
  intros T Q I deq H o q.
  pose proof (@plain_clone_each T) as CE.
  destruct o; cbn [u_do q_do]; try reflexivity.
  - rewrite H. destruct (q_dequeue I q) as [[q' [x|]]| |]; reflexivity.
  - unfold q_bulk_enqueue_cloning, q_bulk_enqueue.
    destruct (q_expose_slots I q) as [[q' [n|]]| |]; cbn [bind]; try reflexivity. rewrite CE.
    now destruct (q_consider_enqueued I _ _).
  - unfold q_bulk_dequeue_cloning, q_bulk_dequeue.
    destruct (q_expose_items I q) as [[q' [s|]]| |]; cbn [bind]; try reflexivity. rewrite CE.
    destruct (q_consider_dequeued I _ _); cbn [bind]; try reflexivity. unfold overlay.
    rewrite firstn_length.
    replace (Nat.min (Nat.min (length s) (length buf)) (length s)) with (Nat.min (length s) (length buf)) by lia.
    reflexivity.
Qed.

(** ** Consumers *)
Section Feeding.
  Context {W T A F E : Type} (clone : T -> W -> W * option T) (M : machine A T F E).

  Lemma firstn_past : forall (X : Type) (l1 l2 : list X) n j, length l1 = n -> firstn (n + j) (l1 ++ l2) = l1 ++ firstn j l2.
  Proof. intros X l1 l2 n j <-. apply firstn_app_2. Qed.

  Lemma took_nil : forall a w, took clone M [] a w a w.
  Proof. intros a w. exists []. split; [constructor|reflexivity]. Qed.

  Lemma took_app : forall xs1 xs2 a w a1 w1 a2 w2,
    took clone M xs1 a w a1 w1 -> took clone M xs2 a1 w1 a2 w2 -> took clone M (xs1 ++ xs2) a w a2 w2.
  Proof.
    intros xs1 xs2 a w a1 w1 a2 w2 (ys1 & H1 & H2) (ys2 & H3 & H4). exists (ys1 ++ ys2).
    split; [eapply clones_app; eauto|]. now rewrite m_feed_app, H2, H4, app_length.
  Qed.

  Lemma took_broke : forall xs1 xs2 a w a1 w1 j a2 w2,
    took clone M xs1 a w a1 w1 -> broke clone M xs2 a1 w1 j a2 w2 ->
    broke clone M (xs1 ++ xs2) a w (length xs1 + j) a2 w2.
  Proof.
    intros xs1 xs2 a w a1 w1 j a2 w2 (ys1 & H1 & H2) (ys2 & H3 & H4 & H5). exists (ys1 ++ ys2).
    pose proof (clones_length H1) as Hl.
    split; [eapply breaks_app; eauto|]. split; [rewrite app_length; lia|].
    now rewrite firstn_past, m_feed_app, H2, H5 by exact Hl.
  Qed.

  Lemma took_refused : forall xs1 xs2 a w a1 w1 i e a2 w2,
    took clone M xs1 a w a1 w1 -> refused clone M xs2 a1 w1 i e a2 w2 ->
    refused clone M (xs1 ++ xs2) a w (length xs1 + i) e a2 w2.
  Proof.
    intros xs1 xs2 a w a1 w1 i e a2 w2 (ys1 & H1 & H2) (Hi & m & ys2 & a3 & H3 & H4 & H5 & H6).
    pose proof (clones_length H1) as Hl. split; [rewrite app_length; lia|].
    exists (length xs1 + m), (ys1 ++ ys2), a3. splits.
    - lia.
    - rewrite app_length. lia.
    - rewrite firstn_past by reflexivity. eapply clones_app; eauto.
    - now rewrite firstn_past, m_feed_app, H2, H5 by exact Hl.
    - intros y Hy. apply H6. intros Hm. rewrite <- Hy by lia. rewrite nth_error_app2 by lia. f_equal. lia.
  Qed.

  Lemma refused_more : forall n xs a w i e a' w',
    refused clone M (firstn n xs) a w i e a' w' -> refused clone M xs a w i e a' w'.
  Proof.
    intros n xs a w i e a' w' (H1 & m & ys & a1 & H2 & H3 & H4 & H5). rewrite firstn_length in *.
    split; [lia|]. exists m, ys, a1. splits; try lia; auto.
    rewrite firstn_firstn, Nat.min_l in H3 by lia. exact H3.
  Qed.

  Lemma broke_more : forall n xs a w j a' w',
    broke clone M (firstn n xs) a w j a' w' -> broke clone M xs a w j a' w'.
  Proof.
    intros n xs a w j a' w' (ys & H1 & H2). exists ys. split; [|exact H2]. eapply firstn_breaks; eauto.
  Qed.

  (** The three cases exclude each other, and each determines what happened, except for how
      many clones had been handed over. *)
  Lemma took_det : forall xs a w a1 w1 a2 w2,
    took clone M xs a w a1 w1 -> took clone M xs a w a2 w2 -> a2 = a1 /\ w2 = w1.
  Proof.
    intros xs a w a1 w1 a2 w2 (ys1 & H1 & H2) (ys2 & H3 & H4).
    destruct (clones_det H1 H3) as [-> ->]. rewrite H2 in H4. injection H4 as <-. auto.
  Qed.

  Lemma took_not_broke : forall xs a w a1 w1 j a2 w2,
    took clone M xs a w a1 w1 -> ~ broke clone M xs a w j a2 w2.
  Proof. intros xs a w a1 w1 j a2 w2 (ys1 & H1 & H2) (ys2 & H3 & _). exact (clones_not_breaks H1 H3). Qed.

  Lemma took_not_refused : forall xs a w a1 w1 i e a2 w2,
    took clone M xs a w a1 w1 -> ~ refused clone M xs a w i e a2 w2.
  Proof.
    intros xs a w a1 w1 i e a2 w2 (ys1 & H1 & H2) (Hi & m & ys2 & a3 & Hm & H3 & H4 & H5).
    pose proof (clones_length H1) as Hl.
    destruct (clones_prefix m H1) as (w3 & H6 & _). destruct (clones_det H6 H3) as [-> ->].
    rewrite firstn_firstn, Nat.min_l in H4 by lia.
    destruct (nth_error ys1 i) as [y|] eqn:Ey; [|apply nth_error_None in Ey; lia].
    specialize (H5 y). rewrite <- (firstn_skipn i ys1), m_feed_app, H4 in H2.
    assert (Hs : exists zs, skipn i ys1 = y :: zs).
    { destruct (skipn i ys1) as [|z zs] eqn:Es.
      - apply (f_equal (@length T)) in Es. rewrite skipn_length in Es. cbn in Es. lia.
      - assert (nth_error ys1 i = Some z) by (rewrite <- (Nat.add_0_r i), <- nth_error_skipn, Es; reflexivity).
        exists zs. congruence. }
    destruct Hs as (zs & Hs). rewrite Hs in H2. cbn in H2. rewrite H5 in H2; [discriminate|].
    intros Him. rewrite nth_error_firstn by lia. exact Ey.
  Qed.

  Context {S : Type} (C : bulk_consumer S T F E) (R : S -> A -> nat -> list T -> Prop) (D : S -> A -> Prop).
  Hypothesis L : lawful_consumer_core C M R D.

  Lemma bulk_consume_cloning_lawful : forall s a k v buf w, R s a k v -> buf <> [] ->
    (exists s' w' n a', bulk_consume_cloning clone C buf s w = Ret (s', w', Done (Ok n)) /\
       1 <= n <= length buf /\ took clone M (firstn n buf) a w a' w' /\ R s' a' 0 []) \/
    (exists s' w' i e a', bulk_consume_cloning clone C buf s w = Ret (s', w', Done (Err e)) /\
       refused clone M buf a w i e a' w' /\ D s' a') \/
    (exists s' w', bulk_consume_cloning clone C buf s w = Ret (s', w', Unwound) /\
       broke clone M buf a w 0 a w' /\ R s' a 0 []).
  Proof.
    intros s a k v buf w HR Hbuf. unfold bulk_consume_cloning.
    assert (Hlb : 1 <= length buf) by (destruct buf; [congruence|cbn; lia]).
    destruct (lc_expose L HR) as [(s1 & n & E1 & Hn & HR1)|(s1 & e & a1 & E1 & He & HD)]; rewrite E1; cbn [bind].
    - set (m := Nat.min n (length buf)).
      destruct (clone_each clone (firstn m buf) w) as [w' [ys b]] eqn:Ec. destruct b.
      + apply clone_each_true in Ec. pose proof (clones_length Ec) as Hl. rewrite firstn_length in Hl.
        pose proof (lc_write L ys HR1 ltac:(lia)) as HR2. rewrite overlay_nil in HR2.
        pose proof (lc_consume_slots L m HR2 ltac:(lia) ltac:(lia)) as H.
        rewrite firstn_all2 in H by lia.
        destruct (m_feed M ys a) as [[a' p] [e|]] eqn:Em; destruct H as (s' & E2 & H); rewrite E2; cbn [bind].
        * right; left. destruct (m_feed_stop Em) as (a1 & x & zs & Hx & Hf & Hst).
          assert (Hp : p < length ys) by (apply m_feed_count in Em as (_ & _ & Em); apply Em; discriminate).
          exists s', w', p, e, a'. split; [reflexivity|]. split; [|exact H]. split; [lia|].
          exists m, ys, a1. splits; auto; try lia. intros y Hy. specialize (Hy ltac:(lia)).
          rewrite Hx in Hy. rewrite nth_error_app2 in Hy by (rewrite firstn_length; lia).
          rewrite firstn_length, Nat.min_l, Nat.sub_diag in Hy by lia. injection Hy as <-. exact Hst.
        * left. exists s', w', m, a'. split; [reflexivity|]. split; [lia|].
          split; [|exact (lc_forget L H)]. exists ys. split; [exact Ec|].
          apply m_feed_count in Em as Hc. destruct Hc as (_ & Hc & _). rewrite (Hc eq_refl) in Em.
          rewrite Em, firstn_length. do 2 f_equal. lia.
      + apply clone_each_false in Ec. pose proof (breaks_length Ec) as Hl. rewrite firstn_length in Hl.
        right; right. exists (c_write C ys s1), w'. split; [reflexivity|].
        split; [|exact (lc_forget L (lc_write L ys HR1 ltac:(lia)))].
        apply broke_more with m. exists ys. splits; auto. lia.
    - right; left. exists s1, w, 0, e, a1. split; [reflexivity|]. split; [|exact HD]. split; [lia|].
      exists 0, [], a. splits; auto; try lia; constructor.
  Qed.

  Lemma consume_full_slice_cloning_from_exact : forall xs i s a k v w, R s a k v ->
    exists s', consume_full_slice_cloning_from clone C i xs s w =
        (let '(_, w', n, r) := clone_feed clone M xs a w in
         Ret (s', w', match r with
                      | AllTaken => Done (Ok tt)
                      | Refused e => Done (Err (mk_cale (i + n) e))
                      | Panicked => Unwound
                      end)) /\
      (let '(a', _, _, r) := clone_feed clone M xs a w in
       match r with
       | Refused _ => D s' a'
       | _ => R s' a' 0 []
       end).
  Proof.
    induction xs as [|x xs IH]; intros i s a k v w HR.
    - exists s. cbn. split; [reflexivity|exact (lc_forget L HR)].
    - cbn. destruct (clone x w) as [w1 [y|]].
      + destruct (lc_consume L y HR) as (s1 & E1 & H). rewrite E1. cbn [bind].
        destruct (m_step M y a) as [a1 [[]|e]]; cbn [snd].
        * destruct (IH (i + 1) s1 a1 _ _ w1 H) as (s2 & E2 & H2). exists s2. rewrite E2.
          destruct (clone_feed clone M xs a1 w1) as [[[a2 w2] n] r].
          split; [|destruct r; exact H2]. destruct r; do 4 f_equal. f_equal. lia.
        * exists s1. rewrite Nat.add_0_r. auto.
      + exists s. split; [reflexivity|exact (lc_forget L HR)].
  Qed.

  Lemma bulk_consume_full_slice_cloning_loop_lawful : forall fuel buf n s a k v w,
    R s a k v -> n <= length buf -> length buf - n < fuel ->
    let rest := skipn n buf in
    (exists s' w' a', bulk_consume_full_slice_cloning_loop clone fuel C n buf s w = Ret (s', w', Done (Ok tt)) /\
       took clone M rest a w a' w' /\ R s' a' 0 []) \/
    (exists s' w' m i e a', bulk_consume_full_slice_cloning_loop clone fuel C n buf s w
         = Ret (s', w', Done (Err (mk_cale (n + m) e))) /\
       m <= i /\ refused clone M rest a w i e a' w' /\ D s' a') \/
    (exists s' w' j a', bulk_consume_full_slice_cloning_loop clone fuel C n buf s w = Ret (s', w', Unwound) /\
       broke clone M rest a w j a' w' /\ R s' a' 0 []).
  Proof.
    induction fuel as [|fuel IH]; intros buf n s a k v w HR Hn Hf; [lia|]. cbn zeta.
    cbn [bulk_consume_full_slice_cloning_loop].
    destruct (Nat.ltb_spec n (length buf)) as [Hlt|Hge].
    - rewrite slice_from_ok by lia. cbn [bind].
      assert (Hne : skipn n buf <> []).
      { intros H. apply (f_equal (@length T)) in H. rewrite skipn_length in H. cbn in H. lia. }
      destruct (bulk_consume_cloning_lawful w HR Hne) as
        [(s1 & w1 & m & a1 & E1 & Hm & HT & HR1)|[(s1 & w1 & i & e & a1 & E1 & HT & HD)|(s1 & w1 & E1 & HB & HR1)]];
        rewrite E1; cbn [bind].
      + rewrite skipn_length in Hm. pose proof (IH buf (n + m) s1 a1 0 [] w1 HR1 ltac:(lia) ltac:(lia)) as H.
        cbn zeta in H. rewrite <- skipn_skipn in H.
        assert (Hl : length (firstn m (skipn n buf)) = m) by (rewrite firstn_length, skipn_length; lia).
        rewrite <- (firstn_skipn m (skipn n buf)).
        destruct H as [(s2 & w2 & a2 & E2 & HT2 & HR2)|[(s2 & w2 & m2 & i & e & a2 & E2 & Hi & HT2 & HD)|(s2 & w2 & j & a2 & E2 & HB & HR2)]].
        * left. exists s2, w2, a2. split; [exact E2|]. split; [|exact HR2]. eapply took_app; eauto.
        * right; left. exists s2, w2, (m + m2), (m + i), e, a2. split; [rewrite E2; do 4 f_equal; f_equal; lia|].
          split; [lia|]. split; [|exact HD]. pose proof (took_refused HT HT2) as HX. rewrite Hl in HX. exact HX.
        * right; right. exists s2, w2, (m + j), a2. split; [exact E2|]. split; [|exact HR2].
          pose proof (took_broke HT HB) as HX. rewrite Hl in HX. exact HX.
      + right; left. exists s1, w1, 0, i, e, a1. rewrite Nat.add_0_r. splits; auto. lia.
      + right; right. exists s1, w1, 0, a. auto.
    - left. exists s, w, a. split; [reflexivity|]. rewrite skipn_all2 by lia. split; [apply took_nil|exact (lc_forget L HR)].
  Qed.
End Feeding.

Lemma clone_feed_took : forall W T A F E (clone : T -> W -> W * option T) (M : machine A T F E) xs a w a' w' n,
  clone_feed clone M xs a w = (a', w', n, AllTaken) -> n = length xs /\ took clone M xs a w a' w'.
Proof.
  intros W T A F E clone M. induction xs as [|x xs IH]; cbn; intros a w a' w' n H.
  - injection H as <- <- <-. split; [reflexivity|apply took_nil].
  - destruct (clone x w) as [w1 [y|]] eqn:Ec; [|discriminate].
    destruct (m_step M y a) as [a1 [[]|e]] eqn:Em; [|discriminate].
    destruct (clone_feed clone M xs a1 w1) as [[[a2 w2] m] r] eqn:E2. injection H as <- <- <- ->.
    destruct (IH _ _ _ _ _ E2) as (-> & ys & H1 & H2). split; [reflexivity|].
    exists (y :: ys). split; [econstructor; eauto|]. cbn. now rewrite Em, H2.
Qed.

Lemma clone_feed_broke : forall W T A F E (clone : T -> W -> W * option T) (M : machine A T F E) xs a w a' w' n,
  clone_feed clone M xs a w = (a', w', n, Panicked) -> broke clone M xs a w n a' w' /\
    forall ys w1, breaks clone xs w ys w1 -> n = length ys.
Proof.
  intros W T A F E clone M. induction xs as [|x xs IH]; cbn; intros a w a' w' n H; [discriminate|].
  destruct (clone x w) as [w1 [y|]] eqn:Ec.
  - destruct (m_step M y a) as [a1 [[]|e]] eqn:Em; [|discriminate].
    destruct (clone_feed clone M xs a1 w1) as [[[a2 w2] m] r] eqn:E2. injection H as <- <- <- ->.
    destruct (IH _ _ _ _ _ E2) as ((ys & H1 & H2 & H3) & H4). split.
    + exists (y :: ys). split; [econstructor; eauto|]. cbn. split; [lia|]. now rewrite Em, H3.
    + intros zs w3 HB. inversion HB as [? ? ? ? H5|? ? ? ? ? ? ? H5 H6]; subst; [congruence|].
      rewrite Ec in H5. injection H5 as <- <-. cbn. f_equal. eapply H4; eauto.
  - injection H as <- <- <-. split.
    + exists []. split; [now constructor|]. split; [cbn; lia|reflexivity].
    + intros zs w3 HB. inversion HB as [? ? ? ? H5|? ? ? ? ? ? ? H5 H6]; subst; [reflexivity|congruence].
Qed.

(** ** Producers *)
Section Producing.
  Context {W T F E S : Type} (clone : T -> W -> W * option T) (P : bulk_producer S T F E)
    (R : S -> list T -> res F E -> nat -> Prop) (D : S -> Prop).
  Hypothesis L : lawful_producer_core P R D.

  Lemma bulk_produce_cloning_lawful : forall s xs l k buf w, R s xs l k -> buf <> [] ->
    (xs = [] /\ exists s', bulk_produce_cloning clone P buf s w = Ret (s', w, (buf, Done (report_last l))) /\ D s') \/
    (exists s' w' n ys, bulk_produce_cloning clone P buf s w = Ret (s', w', (ys ++ skipn n buf, Done (Ok (inl n)))) /\
       1 <= n <= length buf /\ n <= length xs /\ clones clone (firstn n xs) w ys w' /\ R s' (skipn n xs) l 0) \/
    (exists s' w' n ys, bulk_produce_cloning clone P buf s w = Ret (s', w', (overlay ys buf, Unwound)) /\
       n <= length buf /\ n <= length xs /\ breaks clone (firstn n xs) w ys w' /\ R s' xs l 0).
  Proof.
    intros s xs l k buf w HR Hbuf. unfold bulk_produce_cloning.
    assert (Hlb : 1 <= length buf) by (destruct buf; [congruence|cbn; lia]).
    destruct xs as [|x xs0].
    - left. split; [reflexivity|]. destruct (lp_expose_last L HR) as (s' & E1 & HD). exists s'.
      rewrite E1. cbn [bind]. split; [|exact HD]. now destruct l.
    - right. remember (x :: xs0) as xs eqn:Ex.
      destruct (lp_expose L HR) as (s1 & ys & rest & E1 & Hys & Hxs & HR1); [congruence|]. rewrite E1. cbn [bind].
      set (n := Nat.min (length ys) (length buf)).
      assert (Hly : 1 <= length ys) by (destruct ys; [congruence|cbn; lia]).
      assert (Hlx : length xs = length ys + length rest) by (rewrite Hxs, app_length; lia).
      assert (Hf : firstn n ys = firstn n xs).
      { rewrite Hxs, firstn_app. replace (n - length ys) with 0 by lia. cbn. now rewrite app_nil_r. }
      rewrite Hf. destruct (clone_each clone (firstn n xs) w) as [w' [zs b]] eqn:Ec. destruct b.
      + left. apply clone_each_true in Ec. pose proof (clones_length Ec) as Hl. rewrite firstn_length in Hl.
        destruct (lp_consider L n HR1 ltac:(lia) ltac:(lia)) as (s2 & E2 & HR2). rewrite E2. cbn [bind].
        exists s2, w', n, zs. splits; auto; try lia; [|exact (lp_forget L HR2)].
        unfold overlay. do 5 f_equal. lia.
      + right. apply clone_each_false in Ec. exists s1, w', n, zs. splits; auto; try lia. exact (lp_forget L HR1).
  Qed.

  (** Reports the last value of a producer that ended too early. *)
  Definition early_end (l : res F E) : F + E := match l with Ok f => inl f | Err e => inr e end.

  Lemma bulk_overwrite_full_slice_cloning_loop_lawful : forall fuel buf n s xs l k w,
    R s xs l k -> n <= length buf -> length buf - n < fuel ->
    let room := length buf - n in
    (room <= length xs /\ exists s' w' ys,
       bulk_overwrite_full_slice_cloning_loop clone fuel P n buf s w =
         Ret (s', w', (firstn n buf ++ ys, Done (Ok tt))) /\
       clones clone (firstn room xs) w ys w' /\ R s' (skipn room xs) l 0) \/
    (length xs < room /\ exists s' w' ys,
       bulk_overwrite_full_slice_cloning_loop clone fuel P n buf s w =
         Ret (s', w', (firstn n buf ++ overlay ys (skipn n buf), Done (Err (mk_pale (n + length xs) (early_end l))))) /\
       clones clone xs w ys w' /\ D s') \/
    (exists s' w' ys j,
       bulk_overwrite_full_slice_cloning_loop clone fuel P n buf s w =
         Ret (s', w', (firstn n buf ++ overlay ys (skipn n buf), Unwound)) /\
       breaks clone (firstn room xs) w ys w' /\ j <= length ys /\ R s' (skipn j xs) l 0).
  Proof.
    induction fuel as [|fuel IH]; intros buf n s xs l k w HR Hn Hf; [lia|]. cbn zeta.
    cbn [bulk_overwrite_full_slice_cloning_loop].
    destruct (Nat.ltb_spec n (length buf)) as [Hlt|Hge].
    2:{ left. split; [lia|]. exists s, w, []. replace (length buf - n) with 0 by lia. cbn [firstn skipn].
        rewrite firstn_all2, app_nil_r by lia. splits; auto; [constructor|exact (lp_forget L HR)]. }
    rewrite slice_from_ok by lia. cbn [bind].
    assert (Hne : skipn n buf <> []).
    { intros H. apply (f_equal (@length T)) in H. rewrite skipn_length in H. cbn in H. lia. }
    destruct (bulk_produce_cloning_lawful w HR Hne) as
      [(-> & s1 & E1 & HD)|[(s1 & w1 & m & ys & E1 & Hm & Hmx & HC & HR1)|(s1 & w1 & m & ys & E1 & Hm & Hmx & HB & HR1)]];
      rewrite E1; cbn [bind].
    - right; left. split; [cbn; lia|]. exists s1, w, []. cbn [length]. rewrite Nat.add_0_r. unfold overlay. cbn [length skipn app].
      rewrite firstn_skipn. splits; auto; [|constructor].
      destruct l; cbn; reflexivity.
    - pose proof (clones_length HC) as Hl. rewrite firstn_length, Nat.min_l in Hl by lia.
      rewrite skipn_length in Hm.
      set (buf2 := firstn n buf ++ ys ++ skipn m (skipn n buf)).
      assert (Hb2 : length buf2 = length buf).
      { unfold buf2. rewrite !app_length, firstn_length, !skipn_length. lia. }
      pose proof (IH buf2 (n + m) s1 (skipn m xs) l 0 w1 HR1 ltac:(lia) ltac:(lia)) as H. cbn zeta in H. rewrite Hb2 in H.
      assert (Hf2 : firstn (n + m) buf2 = firstn n buf ++ ys).
      { unfold buf2. rewrite app_assoc, firstn_app, app_length, firstn_length.
        replace (n + m - (Nat.min n (length buf) + length ys)) with 0 by lia. cbn [firstn].
        rewrite app_nil_r, firstn_all2; [reflexivity|]. rewrite app_length, firstn_length. lia. }
      assert (Hs2 : skipn (n + m) buf2 = skipn m (skipn n buf)).
      { unfold buf2. rewrite app_assoc, skipn_app, app_length, firstn_length.
        replace (n + m - (Nat.min n (length buf) + length ys)) with 0 by lia. cbn [skipn].
        rewrite (skipn_all2 (firstn n buf ++ ys)); [reflexivity|]. rewrite app_length, firstn_length. lia. }
      rewrite Hf2, Hs2 in H. rewrite skipn_length in H.
      assert (HO : forall zs, ys ++ overlay zs (skipn m (skipn n buf)) = overlay (ys ++ zs) (skipn n buf)).
      { intros zs. unfold overlay. rewrite app_assoc, app_length, (skipn_skipn _ m). do 2 f_equal. lia. }
      assert (HX : forall r, m <= r -> firstn r xs = firstn m xs ++ firstn (r - m) (skipn m xs)).
      { intros r Hr. rewrite firstn_app_skipn. f_equal. lia. }
      destruct H as [(Hr & s2 & w2 & zs & E2 & HC2 & HR2)|[(Hr & s2 & w2 & zs & E2 & HC2 & HD)|(s2 & w2 & zs & j & E2 & HB & Hj & HR2)]];
        rewrite <- app_assoc in E2.
      + left. split; [lia|]. exists s2, w2, (ys ++ zs). split; [exact E2|]. split.
        * rewrite (HX (length buf - n)) by lia. eapply clones_app; [exact HC|].
          replace (length buf - n - m) with (length buf - (n + m)) by lia. exact HC2.
        * rewrite skipn_skipn in HR2. replace (m + (length buf - (n + m))) with (length buf - n) in HR2 by lia. exact HR2.
      + right; left. split; [lia|]. exists s2, w2, (ys ++ zs). split; [|split; [|exact HD]].
        * rewrite HO in E2. replace (n + length xs) with (n + m + (length xs - m)) by lia. exact E2.
        * rewrite <- (firstn_skipn m xs). eapply clones_app; eauto.
      + right; right. exists s2, w2, (ys ++ zs), (m + j). split; [rewrite HO in E2; exact E2|].
        split; [|split; [rewrite app_length; lia|rewrite skipn_skipn in HR2; exact HR2]].
        rewrite (HX (length buf - n)) by lia. eapply breaks_app; [exact HC|].
        replace (length buf - n - m) with (length buf - (n + m)) by lia. exact HB.
    - right; right. exists s1, w1, ys, 0. split; [reflexivity|]. split; [|split; [lia|exact HR1]].
      rewrite skipn_length in Hm. rewrite <- (Nat.min_l m (length buf - n)), <- firstn_firstn in HB by lia.
      eapply firstn_breaks; eauto.
  Qed.
End Producing.

(** ** Pipes *)
Section Pipes.
  Context {W T A E SC : Type} (clone : T -> W -> W * option T) (M : machine A T unit E)
    (C : consumer SC T unit E) (R : SC -> A -> nat -> list T -> Prop) (D : SC -> A -> Prop).

  Lemma pipe_cloning_from_slice : forall (CB : bulk_consumer SC T unit E), C = CB ->
    lawful_consumer_core CB M R D ->
    forall fuel l off sc a k v w,
    R sc a k v -> off <= length l -> length l - off < fuel ->
    exists sc',
      pipe_cloning fuel (from_slice_produce_cloning clone) C (mk_from_slice l off) sc w =
        (let '(a', w', n, r) := clone_feed clone M (skipn off l) a w in
         match r with
         | AllTaken => Ret (mk_from_slice l (length l), sc', w', Done (map_err PipeConsumer (snd (m_finish M tt a'))))
         | Refused e => Ret (mk_from_slice l (off + n + 1), sc', w', Done (Err (PipeConsumer e)))
         | Panicked => Ret (mk_from_slice l (off + n), sc', w', Unwound)
         end) /\
      (let '(a', _, _, r) := clone_feed clone M (skipn off l) a w in
       match r with
       | AllTaken => D sc' (fst (m_finish M tt a'))
       | Refused _ => D sc' a'
       | Panicked => R sc' a' 0 []
       end).
  Proof.
    intros CB -> L. induction fuel as [|fuel IH]; intros l off sc a k v w HR Ho Hf; [lia|].
    cbn [pipe_cloning]. unfold from_slice_produce_cloning at 1. cbn [fs_slice fs_offset].
    destruct (Nat.eqb_spec (length l) off) as [Hl|Hl].
    - subst off. rewrite skipn_all. cbn [bind clone_feed].
      destruct (lc_close L tt HR) as (sc1 & E1 & HD). rewrite E1. cbn [bind]. exists sc1.
      destruct (snd (m_finish M tt a)) as [[]|e]; auto.
    - destruct (nth_error l off) as [x|] eqn:Ex; [|apply nth_error_None in Ex; lia].
      unfold index at 1. rewrite Ex. cbn [bind].
      assert (Hs : skipn off l = x :: skipn (off + 1) l).
      { destruct (nth_error_split _ _ Ex) as (l1 & l2 & -> & Hl1). subst off.
        rewrite !skipn_app, (skipn_all2 l1 (n := length l1)), (skipn_all2 l1 (n := length l1 + 1)), Nat.sub_diag by lia.
        replace (length l1 + 1 - length l1) with 1 by lia. reflexivity. }
      rewrite Hs. cbn [clone_feed]. destruct (clone x w) as [w1 [y|]]; cbn [bind].
      + destruct (lc_consume L y HR) as (sc1 & E1 & H). rewrite E1. cbn [bind].
        destruct (m_step M y a) as [a1 [[]|e]]; cbn [snd].
        * destruct (IH l (off + 1) sc1 a1 0 [] w1 H ltac:(lia) ltac:(lia)) as (sc2 & E2 & H2). exists sc2. rewrite E2.
          destruct (clone_feed clone M (skipn (off + 1) l) a1 w1) as [[[a2 w2] n] r].
          split; [|exact H2].
          replace (off + 1 + n) with (off + S n) by lia. reflexivity.
        * exists sc1. split; [|exact H]. rewrite Nat.add_0_r. reflexivity.
      + exists sc. split; [|exact (lc_forget L HR)]. now rewrite Nat.add_0_r.
  Qed.
End Pipes.

Section BulkPipe.
  Context {W T A F PE CE SP SC : Type} (clone : T -> W -> W * option T) (M : machine A T F CE)
    (P : bulk_producer SP T F PE) (RP : SP -> list T -> res F PE -> nat -> Prop) (DP : SP -> Prop)
    (C : bulk_consumer SC T F CE) (R : SC -> A -> nat -> list T -> Prop) (D : SC -> A -> Prop).
  Hypothesis LP : lawful_producer_core P RP DP.
  Hypothesis L : lawful_consumer_core C M R D.

  Lemma bulk_pipe_cloning_lawful : forall fuel xs l kp sp sc a k v w,
    RP sp xs l kp -> R sc a k v -> length xs < fuel ->
    (exists sp' sc' w' a', took clone M xs a w a' w' /\ DP sp' /\
       match l with
       | Ok f => bulk_pipe_cloning clone fuel P C sp sc w =
                   Ret (sp', sc', w', Done (map_err PipeConsumer (snd (m_finish M f a')))) /\
                 D sc' (fst (m_finish M f a'))
       | Err e => bulk_pipe_cloning clone fuel P C sp sc w = Ret (sp', sc', w', Done (Err (PipeProducer e))) /\
                 R sc' a' 0 []
       end) \/
    (exists sp' sc' w' i j e a', bulk_pipe_cloning clone fuel P C sp sc w =
         Ret (sp', sc', w', Done (Err (PipeConsumer e))) /\
       refused clone M xs a w i e a' w' /\ j <= i /\ RP sp' (skipn j xs) l 0 /\ D sc' a') \/
    (exists sp' sc' w' j a', bulk_pipe_cloning clone fuel P C sp sc w = Ret (sp', sc', w', Unwound) /\
       broke clone M xs a w j a' w' /\ RP sp' (skipn j xs) l 0 /\ R sc' a' 0 []).
  Proof.
    induction fuel as [|fuel IH]; intros xs l kp sp sc a k v w HRP HR Hf; [lia|].
    cbn [bulk_pipe_cloning]. destruct xs as [|x xs0].
    - left. destruct (lp_expose_last LP HRP) as (sp1 & E1 & HD). rewrite E1. cbn [bind].
      destruct l as [f|e]; cbn [report_last].
      + destruct (lc_close L f HR) as (sc1 & E2 & HD2). rewrite E2. cbn [bind].
        exists sp1, sc1, w, a. split; [apply took_nil|]. split; [exact HD|]. split; [|exact HD2].
        destruct (snd (m_finish M f a)) as [[]|e]; reflexivity.
      + exists sp1, sc, w, a. split; [apply took_nil|]. split; [exact HD|]. split; [reflexivity|exact (lc_forget L HR)].
    - remember (x :: xs0) as xs eqn:Ex.
      destruct (lp_expose LP HRP) as (sp1 & ys & rest & E1 & Hys & Hxs & HRP1); [congruence|].
      rewrite E1. cbn [bind].
      destruct (@bulk_consume_cloning_lawful _ _ _ _ _ clone _ _ _ _ _ L _ _ _ _ _ w HR Hys) as
        [(s1 & w1 & m & a1 & E2 & Hm & HT & HR1)|[(s1 & w1 & i & e & a1 & E2 & HT & HD)|(s1 & w1 & E2 & HB & HR1)]];
        rewrite E2; cbn [bind].
      + destruct (lp_consider LP m HRP1 ltac:(lia) ltac:(lia)) as (sp2 & E3 & HRP2). rewrite E3. cbn [bind].
        assert (Hlx : length xs = length ys + length rest) by (rewrite Hxs, app_length; lia).
        assert (Hfm : firstn m ys = firstn m xs).
        { rewrite Hxs, firstn_app. replace (m - length ys) with 0 by lia. cbn. now rewrite app_nil_r. }
        rewrite Hfm in HT.
        assert (Hl : length (firstn m xs) = m) by (rewrite firstn_length; lia).
        destruct (IH (skipn m xs) l _ sp2 s1 a1 _ _ w1 HRP2 HR1 ltac:(rewrite skipn_length; lia)) as
          [(sp3 & sc3 & w3 & a3 & HT3 & HD3 & H3)|[(sp3 & sc3 & w3 & i & j & e & a3 & E4 & HT3 & Hj & HRP3 & HD3)|(sp3 & sc3 & w3 & j & a3 & E4 & HB & HRP3 & HR3)]].
        * left. exists sp3, sc3, w3, a3. split; [|split; [exact HD3|exact H3]].
          rewrite <- (firstn_skipn m xs). eapply took_app; eauto.
        * right; left. exists sp3, sc3, w3, (m + i), (m + j), e, a3. split; [exact E4|].
          pose proof (took_refused HT HT3) as HX. rewrite Hl, firstn_skipn in HX. rewrite skipn_skipn in HRP3.
          splits; auto. lia.
        * right; right. exists sp3, sc3, w3, (m + j), a3. split; [exact E4|].
          pose proof (took_broke HT HB) as HX. rewrite Hl, firstn_skipn in HX. rewrite skipn_skipn in HRP3. auto.
      + right; left. exists sp1, s1, w1, i, 0, e, a1. split; [reflexivity|]. splits; auto; [|lia|exact (lp_forget LP HRP1)].
        rewrite Hxs. apply refused_more with (length ys). now rewrite firstn_app, Nat.sub_diag, app_nil_r, firstn_all.
      + right; right. exists sp1, s1, w1, 0, a. split; [reflexivity|]. splits; auto; [|exact (lp_forget LP HRP1)].
        rewrite Hxs. apply broke_more with (length ys). now rewrite firstn_app, Nat.sub_diag, app_nil_r, firstn_all.
  Qed.
End BulkPipe.

(** ** With the identity for [clone], the code is that of the plain model. *)

Section Plain.
  Context {S T F E : Type}.

  Lemma bulk_produce_plain : forall (P : bulk_producer S T F E) buf s,
    bulk_produce_cloning plain_clone P buf s tt =
      let* (s', (buf', r)) := default_bulk_produce (p_expose P) (p_consider P) buf s in Ret (s', tt, (buf', Done r)).
  Proof.
    intros P buf s. unfold bulk_produce_cloning, default_bulk_produce.
    destruct (p_expose P s) as [[s1 [[slots|f]|e]]| |]; cbn [bind]; try reflexivity.
    rewrite plain_clone_each. unfold overlay. rewrite firstn_length.
    replace (Nat.min (Nat.min (length slots) (length buf)) (length slots)) with (Nat.min (length slots) (length buf)) by lia.
    destruct (p_consider P _ s1) as [[s2 [[]|e]]| |]; reflexivity.
  Qed.

  Lemma bulk_consume_plain : forall (C : bulk_consumer S T F E) buf s,
    bulk_consume_cloning plain_clone C buf s tt =
      let* (s', r) := default_bulk_consume (c_expose C) (c_write C) (c_consume_slots C) buf s in Ret (s', tt, Done r).
  Proof.
    intros C buf s. unfold bulk_consume_cloning, default_bulk_consume.
    destruct (c_expose C s) as [[s1 [n|e]]| |]; cbn [bind]; try reflexivity. rewrite plain_clone_each.
    destruct (c_consume_slots C _ _) as [[s2 [[]|e]]| |]; reflexivity.
  Qed.

  Lemma consume_full_slice_plain : forall (C : consumer S T F E) buf i s,
    consume_full_slice_cloning_from plain_clone C i buf s tt =
      let* (s', r) := consume_full_slice_from C i buf s in Ret (s', tt, Done r).
  Proof.
    intros C. induction buf as [|x buf IH]; intros i s; cbn; [reflexivity|].
    destruct (c_consume C x s) as [[s1 [[]|e]]| |]; cbn; auto.
  Qed.

  Lemma bulk_consume_full_slice_plain : forall (C : bulk_consumer S T F E),
    c_bulk_consume C = default_bulk_consume (c_expose C) (c_write C) (c_consume_slots C) ->
    forall fuel n buf s,
    bulk_consume_full_slice_cloning_loop plain_clone fuel C n buf s tt =
      let* (s', r) := bulk_consume_full_slice_loop fuel C n buf s in Ret (s', tt, Done r).
  Proof.
    intros C HC. induction fuel as [|fuel IH]; intros n buf s; cbn; [reflexivity|].
    destruct (n <? length buf); [|reflexivity]. destruct (slice_from n buf) as [rest| |]; cbn; try reflexivity.
    rewrite bulk_consume_plain, HC.
    destruct (default_bulk_consume _ _ _ rest s) as [[s1 [m|e]]| |]; cbn; auto.
  Qed.

  Lemma bulk_overwrite_full_slice_plain : forall (P : bulk_producer S T F E),
    p_bulk_produce P = default_bulk_produce (p_expose P) (p_consider P) ->
    forall fuel n buf s,
    bulk_overwrite_full_slice_cloning_loop plain_clone fuel P n buf s tt =
      let* (s', (buf', r)) := bulk_overwrite_full_slice_loop fuel P n buf s in Ret (s', tt, (buf', Done r)).
  Proof.
    intros P HP. induction fuel as [|fuel IH]; intros n buf s; cbn; [reflexivity|].
    destruct (n <? length buf); [|reflexivity]. destruct (slice_from n buf) as [rest| |]; cbn; try reflexivity.
    rewrite bulk_produce_plain, HP.
    destruct (default_bulk_produce _ _ rest s) as [[s1 [buf1 [[m|f]|e]]]| |]; cbn; auto.
  Qed.
End Plain.

Lemma from_slice_produce_plain : forall T (s : from_slice T),
  from_slice_produce_cloning plain_clone s tt = let* (s', r) := from_slice_produce s in Ret (s', tt, Done r).
Proof.
  intros T s. unfold from_slice_produce_cloning, from_slice_produce.
  destruct (length (fs_slice s) =? fs_offset s); [reflexivity|].
  destruct (index (fs_offset s) (fs_slice s)); reflexivity.
Qed.

Lemma pipe_plain : forall T E SC (C : consumer SC T unit E) fuel (sp : from_slice T) sc,
  pipe_cloning fuel (from_slice_produce_cloning plain_clone) C sp sc tt =
    let* (sp', sc', r) := pipe fuel (@from_slice_producer T) C sp sc in Ret (sp', sc', tt, Done r).
Proof.
  intros T E SC C. induction fuel as [|fuel IH]; intros sp sc; cbn [pipe_cloning pipe]; [reflexivity|].
  rewrite from_slice_produce_plain. change (p_produce (@from_slice_producer T)) with (@from_slice_produce T).
  destruct (from_slice_produce sp) as [[sp1 [[x|[]]|[]]]| |]; cbn [bind]; try reflexivity.
  - destruct (c_consume C x sc) as [[sc1 [[]|e]]| |]; cbn [bind]; auto.
  - destruct (c_close C tt sc) as [[sc1 [[]|e]]| |]; cbn [bind]; auto.
Qed.

Lemma bulk_pipe_plain : forall T F PE CE SP SC (P : bulk_producer SP T F PE) (C : bulk_consumer SC T F CE),
  c_bulk_consume C = default_bulk_consume (c_expose C) (c_write C) (c_consume_slots C) ->
  forall fuel sp sc,
  bulk_pipe_cloning plain_clone fuel P C sp sc tt =
    let* (sp', sc', r) := bulk_pipe fuel P C sp sc in Ret (sp', sc', tt, Done r).
Proof.
  intros T F PE CE SP SC P C HC. induction fuel as [|fuel IH]; intros sp sc; cbn [bulk_pipe_cloning bulk_pipe]; [reflexivity|].
  destruct (p_expose P sp) as [[sp1 [[slots|f]|e]]| |]; cbn [bind]; try reflexivity.
  - rewrite bulk_consume_plain, HC.
    destruct (default_bulk_consume _ _ _ slots sc) as [[sc1 [m|e]]| |]; cbn [bind]; auto.
    destruct (p_consider P m sp1) as [[sp2 [[]|e]]| |]; cbn [bind]; auto.
  - destruct (c_close C f sc) as [[sc1 [[]|e]]| |]; cbn [bind]; auto.
Qed.

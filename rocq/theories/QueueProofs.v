(** Proofs about queues. *)
From Coq Require Import Bool List Arith Lia.
From Verif Require Import Prelude ListFacts QueueModel QueueSpec.
Import ListNotations.
Set Implicit Arguments.

(** ** Every lawful queue conforms to the specification, for every history. *)
Section Lawful.
  Context {Q T : Type} (I : queue Q T) (c : nat) (R : Q -> list T -> nat -> list T -> Prop).
  Hypothesis L : lawful_queue I c R.

  Lemma lawful_bulk_enqueue : forall q items k w buf, R q items k w ->
    exists q' n, q_bulk_enqueue I buf q = Ret (q', n) /\
      n <= length buf /\ length items + n <= c /\
      (n = 0 <-> length items = c \/ buf = []) /\
      R q' (items ++ firstn n buf) 0 [].
  Proof.
    intros q items k w buf HR. unfold q_bulk_enqueue.
    destruct (lq_wf L HR) as (Hc & Hk & Hw).
    destruct (Nat.eq_dec (length items) c) as [E|E].
    - rewrite (lq_expose_slots_full L HR E). cbn.
      exists q, 0. cbn. rewrite app_nil_r.
      splits; auto; try lia. exact (lq_forget L HR).
    - destruct (lq_expose_slots L HR) as (q1 & n & E1 & Hn1 & Hn2 & HR1); [lia|].
      rewrite E1. cbn.
      set (m := Nat.min n (length buf)).
      assert (Hl : length (firstn m buf) = m) by (rewrite firstn_length; lia).
      pose proof (lq_write L (firstn m buf) HR1 ltac:(lia)) as HR2.
      rewrite overlay_nil in HR2.
      destruct (lq_consider_enqueued L m HR2 ltac:(lia)) as (q3 & E3 & HR3).
      rewrite E3. cbn. rewrite firstn_firstn, Nat.min_id in HR3.
      eexists q3, m. split; [reflexivity|].
      splits; [lia|lia| |exact (lq_forget L HR3)].
      split; [|intros [?| ->]; cbn in *; lia]. intros E0. right.
      destruct buf; [reflexivity|]. cbn in m. lia.
  Qed.

  Lemma lawful_bulk_dequeue : forall q items k w buf, R q items k w ->
    exists q' n, q_bulk_dequeue I buf q = Ret (q', (firstn n items ++ skipn n buf, n)) /\
      n <= length buf /\ n <= length items /\
      (n = 0 <-> items = [] \/ buf = []) /\
      R q' (skipn n items) k w.
  Proof.
    intros q items k w buf HR. unfold q_bulk_dequeue.
    destruct items as [|x0 items0].
    - rewrite (lq_expose_items_empty L HR). cbn. exists q, 0. cbn.
      repeat split; auto; lia.
    - remember (x0 :: items0) as items eqn:Ei.
      destruct (lq_expose_items L HR) as (q1 & s & rest & E1 & Hs & Hi & HR1); [congruence|].
      rewrite E1. cbn. set (n := Nat.min (length s) (length buf)).
      assert (n <= length items) by (rewrite Hi, app_length; lia).
      destruct (lq_consider_dequeued L n HR1 ltac:(lia)) as (q2 & E2 & HR2).
      rewrite E2. cbn. exists q2, n.
      assert (firstn n s = firstn n items) as ->.
      { rewrite Hi, firstn_app. replace (n - length s) with 0 by lia. cbn. now rewrite app_nil_r. }
      splits; [reflexivity|lia|lia| |exact HR2].
      split; [|intros [?| ->]; cbn in *; [congruence|lia]]. intros E0. right.
      destruct buf; [reflexivity|]. destruct s; [congruence|]. cbn in n. lia.
  Qed.

  Lemma lawful_step : forall q items k w o, R q items k w ->
    q_permitted (mk_qabs items k w) o ->
    exists q' r a', q_do I o q = Ret (q', r) /\ q_answer c (mk_qabs items k w) o r a' /\
      R q' (qa_items a') (qa_slots a') (qa_written a').
  Proof.
    intros q items k w o HR HP.
    destruct (lq_wf L HR) as (Hc & Hk & Hw).
    destruct o; cbn [q_do q_permitted qa_items qa_slots qa_written] in *.
    - exists q, (ANat (q_len I q)), (mk_qabs items k w). cbn.
      rewrite (lq_len L HR). auto.
    - exists q, (ABool (q_is_empty I q)), (mk_qabs items k w). cbn. unfold q_is_empty.
      rewrite (lq_len L HR). repeat split; auto.
      + intros H%Nat.eqb_eq. now apply length_zero_iff_nil.
      + intros ->. reflexivity.
    - destruct (Nat.eq_dec (length items) c) as [E|E].
      + rewrite (lq_enqueue_full L x HR E). cbn.
        eexists q, _, (mk_qabs items k w). split; [reflexivity|]. cbn. auto.
      + destruct (lq_enqueue L x HR) as (q' & E' & HR'); [lia|]. rewrite E'. cbn.
        eexists q', _, (mk_qabs (items ++ [x]) 0 []). split; [reflexivity|]. cbn.
        repeat split; auto; lia.
    - destruct items as [|x items].
      + rewrite (lq_dequeue_empty L HR). cbn. eexists q, _, (mk_qabs [] k w).
        split; [reflexivity|]. cbn. auto.
      + destruct (lq_dequeue L HR) as (q' & E' & HR'). rewrite E'. cbn.
        eexists q', _, (mk_qabs items k w). split; [reflexivity|]. cbn. split; [|exact HR'].
        exists items. auto.
    - destruct (lawful_bulk_enqueue buf HR) as (q' & n & E' & H1 & H2 & H3 & HR').
      rewrite E'. cbn. eexists q', _, (mk_qabs (items ++ firstn n buf) 0 []).
      split; [reflexivity|]. cbn. auto 10.
    - destruct (lawful_bulk_dequeue buf HR) as (q' & n & E' & H1 & H2 & H3 & HR').
      rewrite E'. cbn. eexists q', _, (mk_qabs (skipn n items) k w).
      split; [reflexivity|]. cbn. auto 10.
    - destruct (Nat.eq_dec (length items) c) as [E|E].
      + rewrite (lq_expose_slots_full L HR E). cbn. eexists q, _, (mk_qabs items k w).
        split; [reflexivity|]. cbn. auto.
      + destruct (lq_expose_slots L HR) as (q' & n & E' & H1 & H2 & HR'); [lia|]. rewrite E'. cbn.
        eexists q', _, (mk_qabs items n []). split; [reflexivity|]. cbn. auto.
    - eexists _, _, (mk_qabs items k (overlay ys w)). split; [reflexivity|]. cbn.
      split; [reflexivity|]. now apply (lq_write L).
    - destruct (lq_consider_enqueued L n HR HP) as (q' & E' & HR'). rewrite E'. cbn.
      eexists q', _, _. split; [reflexivity|]. cbn. split; [reflexivity|]. exact HR'.
    - destruct items as [|x items].
      + rewrite (lq_expose_items_empty L HR). cbn. eexists q, _, (mk_qabs [] k w).
        split; [reflexivity|]. cbn. auto.
      + destruct (lq_expose_items L HR) as (q' & s & rest & E' & H1 & H2 & HR'); [discriminate|].
        rewrite E'. cbn. eexists q', _, (mk_qabs (x :: items) k w). split; [reflexivity|]. cbn.
        split; [|exact HR']. eauto.
    - destruct (lq_consider_dequeued L n HR HP) as (q' & E' & HR'). rewrite E'. cbn.
      eexists q', _, _. split; [reflexivity|]. cbn. split; [reflexivity|]. exact HR'.
  Qed.

  Lemma q_permitted_dec : forall (a : qabs T) o, q_permitted a o \/ ~ q_permitted a o.
  Proof. intros a o. destruct o; cbn; try (left; exact Logic.I); lia. Qed.

  Lemma lawful_conforms : forall ops q items k w, R q items k w ->
    q_conforms I c ops q (mk_qabs items k w).
  Proof.
    induction ops as [|o ops IH]; intros q items k w HR; [constructor|].
    destruct (q_permitted_dec (mk_qabs items k w) o) as [HP|HP]; [|now constructor].
    destruct (lawful_step o HR HP) as (q' & r & [i' k' w'] & E & HA & HR').
    eapply q_conforms_step; eauto.
  Qed.

  Lemma q_answer_det : forall (a : qabs T) o r a1 a2,
    q_answer c a o r a1 -> q_answer c a o r a2 -> a1 = a2.
  Proof.
    intros a o r a1 a2 H1 H2.
    destruct o; destruct r as [| |[]|[]|[]| |]; cbn in H1, H2;
      try contradiction;
      repeat match goal with
      | H : _ /\ _ |- _ => destruct H
      | H : exists _, _ |- _ => destruct H
      end; congruence.
  Qed.

  Lemma lawful_history : forall q a h q' a',
    R q (qa_items a) (qa_slots a) (qa_written a) ->
    q_history I c q a h q' a' ->
    R q' (qa_items a') (qa_slots a') (qa_written a').
  Proof.
    intros q a h q' a' HR HH. induction HH as [|q a o q1 r a1 h q2 a2 HP HD HA HH IH]; [exact HR|].
    apply IH. destruct a as [items k w].
    destruct (lawful_step o HR HP) as (q1' & r' & a1' & HD' & HA' & HR').
    rewrite HD in HD'. injection HD' as <- <-.
    now rewrite (q_answer_det _ _ _ _ _ HA HA').
  Qed.
End Lawful.
Arguments lawful_bulk_enqueue {Q T I c R} L {q items k w} buf _.
Arguments lawful_bulk_dequeue {Q T I c R} L {q items k w} buf _.
Arguments lawful_conforms {Q T I c R} L ops {q items k w} _.
Arguments lawful_history {Q T I c R} L {q a h q' a'} _ _.

(** Whatever property all items that go into a queue have, all items that come out
    have as well: a fact about the specification alone. *)
Lemma q_history_preserves : forall Q T (I : queue Q T) c (P : T -> Prop) q a h q' a',
  q_history I c q a h q' a' ->
  Forall P (qa_items a) -> Forall P (qa_written a) ->
  Forall (fun p => Forall P (qop_inputs (fst p))) h ->
  Forall (fun p => Forall P (qans_outputs (snd p))) h /\ Forall P (qa_items a').
Proof.
  intros Q T I c P q a h q' a' HH. induction HH as [|q a o q1 r a1 h q2 a2 HP HD HA HH IH].
  - auto.
  - intros Hi Hw Hin. inversion Hin as [|? ? Hin1 Hin2]; subst. cbn in Hin1.
    assert (Forall P (qans_outputs r) /\ Forall P (qa_items a1) /\ Forall P (qa_written a1)) as (Hr & Hi1 & Hw1).
    { destruct a as [items k w]; cbn in *.
      assert (Hf : forall n (l : list T), Forall P l -> Forall P (firstn n l)).
      { intros n l Hl. rewrite <- (firstn_skipn n l) in Hl. now apply Forall_app in Hl. }
      assert (Hs : forall n (l : list T), Forall P l -> Forall P (skipn n l)).
      { intros n l Hl. rewrite <- (firstn_skipn n l) in Hl. now apply Forall_app in Hl. }
      destruct o; destruct r as [| |[]|[]|[]| |]; cbn in HA, Hin1 |- *; try contradiction;
        repeat match goal with
        | H : _ /\ _ |- _ => destruct H
        | H : exists _, _ |- _ => destruct H
        end; subst; cbn; repeat split; auto;
        try (apply Forall_app; split; auto); try (inversion Hi; subst; auto; fail).
      all: try (apply Forall_app in Hi; tauto).
      - assert (firstn n (firstn n items ++ skipn n buf) = firstn n items) as ->; auto.
        rewrite firstn_app, firstn_firstn, Nat.min_id, firstn_length, Nat.min_l by lia.
        replace (n - n) with 0 by lia. cbn. apply app_nil_r. }
    destruct (IH Hi1 Hw1 Hin2) as [IH1 IH2]. split; auto.
Qed.


(** ** [Fixed] is lawful. *)
Section Fixed.
  Context {T : Type}.

  (** Cell [i] after the read position. *)
  Definition ring_at (q : fixed T) (i : nat) : option T :=
    nth_error (fx_data q) ((fx_read q + i) mod fixed_capacity q).

  Definition fixed_R (c : nat) (q : fixed T) (items : list T) (k : nat) (w : list T) : Prop :=
    0 < c /\ fixed_capacity q = c /\ fx_read q < c /\ fx_amount q = length items /\
    length items + k <= c /\ length w <= k /\
    (k = 0 \/ (fx_read q + fx_amount q) mod c + k <= c) /\
    forall i, i < length (items ++ w) -> ring_at q i = nth_error (items ++ w) i.

  Lemma fixed_new_R : forall c tmp, 0 < c -> fixed_R c (fixed_new_with_manual_tmps c tmp) [] 0 [].
  Proof.
    intros c tmp Hc. unfold fixed_R, fixed_capacity, fixed_new_with_manual_tmps. cbn.
    rewrite map_length, seq_length. repeat split; auto; try lia.
  Qed.

  (* The geometry of the writeable region. *)
  Lemma fixed_writeable : forall c q items k w,
    fixed_R c q items k w -> length items < c ->
    exists n, fixed_writeable_slice q = Ret ((fx_read q + fx_amount q) mod c, n) /\
      1 <= n /\ length items + n <= c /\ (fx_read q + fx_amount q) mod c + n <= c /\ k <= n.
  Proof.
    intros c q items k w (Hc & Hcap & Hr & Ha & Hk & Hw & Hg & _) Hlt.
    unfold fixed_writeable_slice, fixed_write_to, fixed_is_data_contiguous.
    rewrite Hcap, cmod_ok by lia. cbn.
    pose proof (@mod_add_lt (fx_read q) (fx_amount q) c) as Hm.
    rewrite Hm in * by lia. clear Hm.
    unfold fixed_capacity in Hcap.
    destruct (Nat.ltb_spec (fx_read q + fx_amount q) c).
    - rewrite slice_ok by lia. cbn. eexists. split; [reflexivity|].
      rewrite firstn_length, skipn_length, Hcap. lia.
    - rewrite slice_ok by lia. cbn. eexists. split; [reflexivity|].
      rewrite firstn_length, skipn_length, Hcap. lia.
  Qed.

  Lemma ring_blit : forall c (q : fixed T) j0 ys i am,
    0 < c -> fixed_capacity q = c -> j0 < c -> j0 + length ys <= c ->
    (fx_read q + j0) mod c + length ys <= c -> i < c ->
    ring_at (mk_fixed (blit ((fx_read q + j0) mod c) ys (fx_data q)) (fx_read q) am) i =
      if (j0 <=? i) && (i <? j0 + length ys) then nth_error ys (i - j0) else ring_at q i.
  Proof.
    intros c q j0 ys i am Hc Hcap Hj Hjy Hoy Hi.
    unfold ring_at, fixed_capacity in *. cbn.
    rewrite length_blit by lia. rewrite Hcap.
    rewrite nth_error_blit by lia.
    set (o := (fx_read q + j0) mod c) in *.
    (* position of i relative to o *)
    assert (Hin : forall d, d < length ys -> (fx_read q + (j0 + d)) mod c = o + d).
    { intros d Hd. unfold o. rewrite Nat.add_assoc.
      rewrite <- (Nat.add_mod_idemp_l (fx_read q + j0) d c) by lia.
      apply Nat.mod_small. unfold o in Hoy. lia. }
    destruct (Nat.leb_spec j0 i) as [H1|H1], (Nat.ltb_spec i (j0 + length ys)) as [H2|H2]; cbn.
    - replace i with (j0 + (i - j0)) by lia. rewrite Hin by lia.
      destruct (Nat.leb_spec o (o + (i - j0))); [|lia].
      destruct (Nat.ltb_spec (o + (i - j0)) (o + length ys)); [|lia].
      cbn. f_equal. lia.
    - destruct (Nat.leb_spec o ((fx_read q + i) mod c)); cbn; [|reflexivity].
      destruct (Nat.ltb_spec ((fx_read q + i) mod c) (o + length ys)); [|reflexivity].
      exfalso. set (d := (fx_read q + i) mod c - o).
      pose proof (Hin d ltac:(lia)) as E.
      replace (o + d) with ((fx_read q + i) mod c) in E by lia.
      apply mod_inj in E; lia.
    - destruct (Nat.leb_spec o ((fx_read q + i) mod c)); cbn; [|reflexivity].
      destruct (Nat.ltb_spec ((fx_read q + i) mod c) (o + length ys)); [|reflexivity].
      exfalso. set (d := (fx_read q + i) mod c - o).
      pose proof (Hin d ltac:(lia)) as E.
      replace (o + d) with ((fx_read q + i) mod c) in E by lia.
      apply mod_inj in E; lia.
    - destruct (Nat.leb_spec o ((fx_read q + i) mod c)); cbn; [|reflexivity].
      destruct (Nat.ltb_spec ((fx_read q + i) mod c) (o + length ys)); [|reflexivity].
      exfalso. lia.
  Qed.

  Lemma fixed_dequeued_R : forall c q items k w n,
    fixed_R c q items k w -> n <= length items ->
    fixed_R c (mk_fixed (fx_data q) ((fx_read q + n) mod c) (fx_amount q - n)) (skipn n items) k w.
  Proof.
    intros c q items k w n (Hc & Hcap & Hr & Ha & Hk & Hw & Hg & Hi) Hn.
    unfold fixed_R, ring_at, fixed_capacity in *. cbn [fx_data fx_read fx_amount].
    rewrite skipn_length.
    assert (Hm : forall j, ((fx_read q + n) mod c + j) mod c = (fx_read q + (n + j)) mod c).
    { intros. rewrite Nat.add_mod_idemp_l by lia. f_equal. lia. }
    repeat split; auto; try lia.
    - apply Nat.mod_upper_bound. lia.
    - rewrite Hm. replace (n + (fx_amount q - n)) with (fx_amount q) by lia. exact Hg.
    - intros i H. rewrite Hcap, Hm.
      rewrite <- (Hcap) at 1. rewrite Hi.
      + rewrite app_length, skipn_length in H.
        rewrite <- nth_error_skipn. rewrite skipn_app.
        replace (n - length items) with 0 by lia. reflexivity.
      + rewrite app_length, skipn_length in H. rewrite app_length. lia.
  Qed.

  Lemma ring_contig : forall c (q : fixed T) items k w,
    fixed_R c q items k w ->
    forall n, fx_read q + n <= c -> n <= length items ->
    firstn n (skipn (fx_read q) (fx_data q)) = firstn n items.
  Proof.
    intros c q items k w (Hc & Hcap & Hr & Ha & Hk & Hw & Hg & Hi) n Hn Hn'.
    apply list_ext. intros i.
    destruct (Nat.lt_ge_cases i n) as [H|H].
    - rewrite !nth_error_firstn by lia. rewrite nth_error_skipn.
      specialize (Hi i). rewrite app_length in Hi.
      rewrite nth_error_app1 in Hi by lia. rewrite <- Hi by lia.
      unfold ring_at. rewrite Hcap, Nat.mod_small by lia. reflexivity.
    - rewrite !nth_error_firstn_ge by lia. reflexivity.
  Qed.

  Lemma fixed_expose_items_spec : forall c q items k w,
    fixed_R c q items k w -> items <> [] ->
    exists n, fixed_expose_items q = Ret (q, Some (firstn n items)) /\
      1 <= n <= length items /\ n = Nat.min (length items) (c - fx_read q).
  Proof.
    intros c q items k w HR Hne. pose proof HR as (Hc & Hcap & Hr & Ha & Hk & Hw & Hg & Hi).
    assert (Hl : 0 < length items) by (destruct items; [congruence|cbn; lia]).
    unfold fixed_expose_items, fixed_readable_slice, fixed_is_data_contiguous, fixed_write_to.
    destruct (Nat.eqb_spec (fx_amount q) 0); [lia|].
    rewrite Hcap, cmod_ok by lia. cbn. rewrite mod_add_lt by lia.
    unfold fixed_capacity in Hcap.
    destruct (Nat.ltb_spec (fx_read q + fx_amount q) c).
    - rewrite slice_ok by lia. cbn.
      exists (fx_amount q). replace (fx_read q + fx_amount q - fx_read q) with (fx_amount q) by lia.
      rewrite (@ring_contig c q items k w HR) by lia. split; [reflexivity|]. lia.
    - rewrite slice_from_ok by lia. cbn.
      exists (c - fx_read q). split; [|lia]. do 3 f_equal.
      rewrite <- (@ring_contig c q items k w HR) by lia.
      rewrite firstn_all2; [reflexivity|]. rewrite skipn_length. lia.
  Qed.

  Lemma fixed_write_nil : forall q : fixed T, fixed_write [] q = q.
  Proof.
    intros q. unfold fixed_write. destruct (fixed_writeable_slice q) as [[o n]| |] eqn:Ew; try reflexivity.
    rewrite firstn_nil. unfold blit. cbn. rewrite Nat.add_0_r, firstn_skipn.
    now destruct q.
  Qed.

  Theorem fixed_lawful : forall c, lawful_queue (fixed_queue T) c (fixed_R c).
  Proof.
    intros c. constructor; cbn.
    - intros q items k w (Hc & Hcap & Hr & Ha & Hk & Hw & Hg & Hi). lia.
    - intros q items k w (Hc & Hcap & Hr & Ha & Hk & Hw & Hg & Hi).
      unfold fixed_R. cbn. splits; auto; try lia.
      intros i H. rewrite app_nil_r in *. rewrite Hi by (rewrite app_length; lia).
      now rewrite nth_error_app1 by lia.
    - intros q items k w (Hc & Hcap & Hr & Ha & Hk & Hw & Hg & Hi). lia.
    - intros q items k w x (Hc & Hcap & Hr & Ha & Hk & Hw & Hg & Hi) E.
      unfold fixed_enqueue. rewrite Hcap. destruct (Nat.eqb_spec (fx_amount q) c); [reflexivity|lia].
    - intros q items k w x HR Hlt. pose proof HR as (Hc & Hcap & Hr & Ha & Hk & Hw & Hg & Hi).
      unfold fixed_enqueue, fixed_write_to. rewrite Hcap.
      destruct (Nat.eqb_spec (fx_amount q) c); [lia|].
      rewrite cmod_ok by lia. cbn.
      pose proof (Nat.mod_upper_bound (fx_read q + fx_amount q) c ltac:(lia)) as Hub.
      unfold fixed_capacity in Hcap.
      rewrite index_set_ok by lia. cbn. eexists. split; [reflexivity|].
      unfold fixed_R. repeat split; auto; cbn [fx_data fx_read fx_amount].
      + unfold fixed_capacity. cbn [fx_data]. rewrite length_blit by (cbn; lia). exact Hcap.
      + rewrite app_length. cbn. lia.
      + rewrite app_length. cbn. lia.
      + intros i H. rewrite app_nil_r in *. rewrite app_length in H. cbn in H.
        rewrite (@ring_blit c) by (cbn; unfold fixed_capacity; lia). cbn [length].
        destruct (Nat.leb_spec (fx_amount q) i), (Nat.ltb_spec i (fx_amount q + 1)); cbn; try lia.
        * rewrite nth_error_app2 by lia. f_equal. lia.
        * rewrite nth_error_app1 by lia. rewrite Hi by (rewrite app_length; lia).
          now rewrite nth_error_app1 by lia.
    - intros q items k w (Hc & Hcap & Hr & Ha & Hk & Hw & Hg & Hi) E.
      unfold fixed_expose_slots. rewrite Hcap.
      destruct (Nat.eqb_spec (fx_amount q) c); [reflexivity|lia].
    - intros q items k w HR Hlt. destruct (fixed_writeable HR Hlt) as (n & E & H1 & H2 & H3 & H4).
      pose proof HR as (Hc & Hcap & Hr & Ha & Hk & Hw & Hg & Hi).
      exists q, n. unfold fixed_expose_slots. rewrite Hcap.
      destruct (Nat.eqb_spec (fx_amount q) c); [lia|]. rewrite E. cbn.
      repeat split; auto. unfold fixed_R. cbn. repeat split; auto; try lia.
      intros i H. rewrite app_nil_r in *. rewrite Hi by (rewrite app_length; lia).
      now rewrite nth_error_app1 by lia.
    - intros q items k w ys HR Hys. pose proof HR as (Hc & Hcap & Hr & Ha & Hk & Hw & Hg & Hi).
      destruct (Nat.eq_dec (length items) c) as [E|E].
      + assert (ys = []) as -> by (destruct ys; [reflexivity|cbn in Hys; lia]).
        rewrite fixed_write_nil. exact HR.
      + destruct (fixed_writeable HR ltac:(lia)) as (n & Ew & H1 & H2 & H3 & H4).
        unfold fixed_write. rewrite Ew. rewrite (firstn_all2 ys) by lia.
        unfold fixed_R. cbn [fx_data fx_read fx_amount].
        repeat split; auto.
        * unfold fixed_capacity in *. cbn [fx_data]. rewrite length_blit by lia. exact Hcap.
        * rewrite length_overlay_max. lia.
        * intros i H. rewrite app_length, length_overlay_max in H.
          rewrite (@ring_blit c) by (unfold fixed_capacity in *; lia).
          unfold overlay.
          destruct (Nat.leb_spec (fx_amount q) i), (Nat.ltb_spec i (fx_amount q + length ys)); cbn.
          -- rewrite nth_error_app2 by lia. rewrite nth_error_app1 by lia. f_equal. lia.
          -- rewrite nth_error_app2 by lia. rewrite nth_error_app2 by lia.
             rewrite nth_error_skipn. rewrite Hi by (rewrite app_length; lia).
             rewrite nth_error_app2 by lia. f_equal. lia.
          -- rewrite nth_error_app1 by lia. rewrite Hi by (rewrite app_length; lia).
             now rewrite nth_error_app1 by lia.
          -- lia.
    - intros q items k w n (Hc & Hcap & Hr & Ha & Hk & Hw & Hg & Hi) Hn.
      unfold fixed_consider_enqueued. eexists. split; [reflexivity|].
      unfold fixed_R. cbn [fx_data fx_read fx_amount].
      rewrite skipn_length, app_length, firstn_length.
      repeat split; auto; try lia.
      + destruct (Nat.eq_dec (k - n) 0); [lia|]. right.
        rewrite Nat.add_assoc.
        rewrite <- (Nat.add_mod_idemp_l (fx_read q + fx_amount q) n c) by lia.
        rewrite Nat.mod_small; lia.
      + intros i H. rewrite <- app_assoc, firstn_skipn in *. now apply Hi.
    - intros q k w (Hc & Hcap & Hr & Ha & Hk & Hw & Hg & Hi).
      unfold fixed_dequeue. rewrite Ha. reflexivity.
    - intros q x items k w HR. pose proof HR as (Hc & Hcap & Hr & Ha & Hk & Hw & Hg & Hi).
      pose proof (@fixed_dequeued_R c q (x :: items) k w 1 HR ltac:(cbn; lia)) as HR'. cbn in HR'.
      unfold fixed_dequeue. rewrite Ha. cbn [length Nat.eqb].
      rewrite Hcap, cmod_ok by lia. cbn [bind]. rewrite csub_ok by lia. cbn [bind].
      pose proof (Hi 0 ltac:(cbn; lia)) as H0. unfold ring_at in H0. rewrite Hcap in H0.
      rewrite Nat.add_0_r, Nat.mod_small in H0 by lia. cbn in H0.
      unfold index. rewrite H0. cbn [bind]. eexists. split; [reflexivity|].
      rewrite Ha in HR'. exact HR'.
    - intros q k w (Hc & Hcap & Hr & Ha & Hk & Hw & Hg & Hi).
      unfold fixed_expose_items. rewrite Ha. reflexivity.
    - intros q items k w HR Hne.
      destruct (fixed_expose_items_spec HR Hne) as (n & E & Hn & _).
      exists q, (firstn n items), (skipn n items). splits; auto.
      + apply firstn_nonempty; auto; lia.
      + now rewrite firstn_skipn.
    - intros q items k w n HR Hn. pose proof HR as (Hc & Hcap & Hr & Ha & Hk & Hw & Hg & Hi).
      unfold fixed_consider_dequeued. rewrite Hcap, cmod_ok by lia. cbn. rewrite csub_ok by lia.
      cbn. eexists. split; [reflexivity|]. now apply fixed_dequeued_R.
  Qed.

  (** *** Exact state equalities: bulk marking is the same as repeated single calls. *)
  Lemma blit_cons : forall o (x : T) ys l, o + S (length ys) <= length l ->
    blit (S o) ys (blit o [x] l) = blit o (x :: ys) l.
  Proof.
    intros o x ys l H. apply list_ext. intros i.
    rewrite nth_error_blit by (rewrite length_blit; cbn; lia).
    rewrite nth_error_blit by (cbn; lia). rewrite nth_error_blit by (cbn; lia). cbn [length].
    destruct (Nat.leb_spec (S o) i), (Nat.ltb_spec i (S o + length ys)), (Nat.leb_spec o i),
      (Nat.ltb_spec i (o + 1)), (Nat.ltb_spec i (o + S (length ys))); cbn; try lia; try reflexivity.
    - replace (i - o) with (S (i - S o)) by lia. reflexivity.
    - replace (i - o) with 0 by lia. reflexivity.
  Qed.

  Lemma enqueue_all_blit : forall c ys q items k w,
    fixed_R c q items k w -> length items + length ys <= c ->
    (fx_read q + fx_amount q) mod c + length ys <= c ->
    q_enqueue_all (fixed_queue T) ys q = Ret (mk_fixed (blit ((fx_read q + fx_amount q) mod c) ys (fx_data q))
                                     (fx_read q) (fx_amount q + length ys)).
  Proof.
    intros c ys. induction ys as [|y ys IH]; intros q items k w HR Hl Hg.
    - cbn. unfold blit. cbn. rewrite Nat.add_0_r, firstn_skipn, Nat.add_0_r. now destruct q.
    - cbn [q_enqueue_all fixed_queue q_enqueue]. cbn [length] in *.
      destruct (lq_enqueue (fixed_lawful c) y HR ltac:(lia)) as (q' & E & HR'). cbn in E.
      rewrite E. cbn [bind].
      pose proof HR as (Hc & Hcap & Hr & Ha & Hk & Hw & _ & Hi).
      unfold fixed_enqueue, fixed_write_to in E. rewrite Hcap in E.
      destruct (Nat.eqb_spec (fx_amount q) c); [lia|].
      rewrite cmod_ok in E by lia. cbn [bind] in E.
      pose proof (Nat.mod_upper_bound (fx_read q + fx_amount q) c ltac:(lia)) as Hub.
      unfold fixed_capacity in Hcap.
      rewrite index_set_ok in E by lia. cbn [bind] in E. injection E as <-.
      rewrite (IH _ _ _ _ HR'); cbn [fx_data fx_read fx_amount].
      2:{ rewrite app_length. cbn. lia. }
      + destruct ys as [|y' ys].
        * cbn [length]. unfold blit at 1. cbn [length]. rewrite Nat.add_0_r. cbn [app].
          rewrite firstn_skipn. f_equal. f_equal. lia.
        * assert (Es : (fx_read q + (fx_amount q + 1)) mod c = S ((fx_read q + fx_amount q) mod c)).
          { rewrite Nat.add_assoc, <- (Nat.add_mod_idemp_l (fx_read q + fx_amount q) 1 c) by lia.
            cbn [length] in Hg. rewrite Nat.mod_small; lia. }
          rewrite Es, blit_cons by lia. f_equal. f_equal. lia.
      + destruct ys as [|y' ys].
        * cbn. pose proof (Nat.mod_upper_bound (fx_read q + (fx_amount q + 1)) c ltac:(lia)). lia.
        * rewrite Nat.add_assoc, <- (Nat.add_mod_idemp_l (fx_read q + fx_amount q) 1 c) by lia.
          cbn [length] in *. rewrite Nat.mod_small; lia.
  Qed.

  Lemma fixed_write_consider_eq : forall c q items k w ys,
    fixed_R c q items k w -> length ys <= k ->
    fixed_consider_enqueued (length ys) (fixed_write ys q) = q_enqueue_all (fixed_queue T) ys q.
  Proof.
    intros c q items k w ys HR Hys. pose proof HR as (Hc & Hcap & Hr & Ha & Hk & Hw & Hg & Hi).
    destruct ys as [|y ys].
    - rewrite fixed_write_nil. unfold fixed_consider_enqueued. cbn. rewrite Nat.add_0_r.
      now destruct q.
    - cbn [length] in Hys.
      destruct (fixed_writeable HR ltac:(lia)) as (n & Ew & H1 & H2 & H3 & H4).
      rewrite (@enqueue_all_blit c (y :: ys) q items k w HR); cbn [length]; try lia.
      unfold fixed_write. rewrite Ew. rewrite firstn_all2 by (cbn; lia). reflexivity.
  Qed.

  Lemma dequeue_n_spec : forall c n q items k w,
    fixed_R c q items k w -> n <= length items ->
    q_dequeue_n (fixed_queue T) n q = Ret (mk_fixed (fx_data q) ((fx_read q + n) mod c) (fx_amount q - n), firstn n items).
  Proof.
    intros c n. induction n as [|n IH]; intros q items k w HR Hn.
    - cbn. pose proof HR as (Hc & Hcap & Hr & Ha & Hk & Hw & Hg & Hi).
      rewrite Nat.add_0_r, Nat.mod_small, Nat.sub_0_r by lia. now destruct q.
    - destruct items as [|x items]; [cbn in Hn; lia|].
      pose proof HR as (Hc & Hcap & Hr & Ha & Hk & Hw & Hg & Hi).
      destruct (lq_dequeue (fixed_lawful c) HR) as (q' & E & HR'). cbn in E.
      cbn [q_dequeue_n fixed_queue q_dequeue]. rewrite E. cbn [bind].
      rewrite (IH _ _ _ _ HR') by (cbn in Hn; lia). cbn [bind].
      unfold fixed_dequeue in E. rewrite Ha in E. cbn [length Nat.eqb] in E.
      rewrite Hcap, cmod_ok in E by lia. cbn [bind] in E. rewrite csub_ok in E by lia. cbn [bind] in E.
      destruct (index (fx_read q) (fx_data q)) as [y| |]; try discriminate. cbn in E.
      injection E as <- ->. cbn [fx_data fx_read fx_amount firstn]. f_equal. f_equal. f_equal.
      + rewrite Nat.add_mod_idemp_l by lia. f_equal. lia.
      + rewrite Ha. cbn [length]. lia.
  Qed.

  Lemma fixed_consider_dequeued_eq : forall c n q items k w,
    fixed_R c q items k w -> n <= length items ->
    exists q', fixed_consider_dequeued n q = Ret q' /\ q_dequeue_n (fixed_queue T) n q = Ret (q', firstn n items).
  Proof.
    intros c n q items k w HR Hn. pose proof HR as (Hc & Hcap & Hr & Ha & Hk & Hw & Hg & Hi).
    unfold fixed_consider_dequeued. rewrite Hcap, cmod_ok by lia. cbn. rewrite csub_ok by lia. cbn.
    eexists. split; [reflexivity|]. eapply dequeue_n_spec; eauto.
  Qed.

  Lemma fixed_debug_spec : forall c q items k w,
    fixed_R c q items k w -> fixed_debug q = Ret (c, length items, items).
  Proof.
    intros c q items k w HR. pose proof HR as (Hc & Hcap & Hr & Ha & Hk & Hw & Hg & Hi).
    unfold fixed_debug, fixed_debug_data, fixed_is_data_contiguous, fixed_write_to.
    rewrite Hcap, cmod_ok by lia. cbn [bind]. rewrite mod_add_lt by lia.
    pose proof Hcap as Hlen. unfold fixed_capacity in Hlen.
    destruct (Nat.ltb_spec (fx_read q + fx_amount q) c).
    - rewrite slice_ok by lia. cbn [bind].
      replace (fx_read q + fx_amount q - fx_read q) with (fx_amount q) by lia.
      rewrite (@ring_contig c q items k w HR) by lia.
      rewrite Ha, firstn_all. reflexivity.
    - rewrite slice_from_ok by lia. cbn [bind]. rewrite skipn_length, Hlen.
      rewrite csub_ok by lia. cbn [bind]. rewrite slice_ok by lia. cbn [bind skipn].
      rewrite Ha, Nat.sub_0_r. do 3 f_equal.
      transitivity (firstn (c - fx_read q) items ++ skipn (c - fx_read q) items);
        [|apply firstn_skipn]. f_equal.
      + rewrite <- (@ring_contig c q items k w HR) by lia.
        rewrite firstn_all2; [reflexivity|]. rewrite skipn_length. lia.
      + apply list_ext. intros i.
        destruct (Nat.lt_ge_cases i (length items - (c - fx_read q))).
        * rewrite nth_error_firstn, nth_error_skipn by lia.
          specialize (Hi (c - fx_read q + i)). rewrite app_length in Hi.
          rewrite nth_error_app1 in Hi by lia. rewrite <- Hi by lia.
          unfold ring_at. rewrite Hcap. f_equal.
          replace (fx_read q + (c - fx_read q + i)) with (i + 1 * c) by lia.
          rewrite Nat.mod_add by lia. rewrite Nat.mod_small; lia.
        * rewrite nth_error_firstn_ge by lia. symmetry. apply nth_error_None.
          rewrite skipn_length. lia.
  Qed.

  (** The bounds on the stored numbers, for every state that is ever reached. *)
  Lemma fixed_R_bounds : forall c q items k w, fixed_R c q items k w ->
    fixed_capacity q = c /\ fx_read q < c /\ fx_amount q <= c /\ fx_read q + fx_amount q < 2 * c.
  Proof. intros c q items k w (Hc & Hcap & Hr & Ha & Hk & Hw & Hg & Hi). lia. Qed.
End Fixed.

(** ** [Static] is [Fixed] with a constant capacity. *)
Section StaticFixed.
  Context {T : Type} (N : nat).

  Definition to_fixed (q : static T) : fixed T := mk_fixed (st_data q) (st_read q) (st_amount q).

  Definition omap {A B} (f : A -> B) (o : outcome A) : outcome B :=
    match o with Ret a => Ret (f a) | Panic => Panic | NoFuel => NoFuel end.

  Definition lift_do (o : outcome (static T * qans T)) : outcome (fixed T * qans T) :=
    omap (fun p => (to_fixed (fst p), snd p)) o.

  Lemma static_writeable_eq : forall q, static_wf N q ->
    static_writeable_slice N q = fixed_writeable_slice (to_fixed q).
  Proof.
    intros [d r a] H. unfold static_wf in H. cbn in H. subst N. reflexivity.
  Qed.

End StaticFixed.

Section StaticFixed2.
  Context {T : Type} (N : nat).

  Lemma static_do_eq : forall o (q : static T), static_wf N q ->
    lift_do (q_do (static_queue N) o q) = q_do (fixed_queue T) o (to_fixed q).
  Proof.
    intros o [d r a] H. unfold static_wf in H. cbn in H. subst N.
    destruct o; cbn; try reflexivity.
    - unfold static_enqueue, fixed_enqueue, fixed_capacity. cbn.
      destruct (a =? length d); [reflexivity|].
      unfold static_write_to, fixed_write_to, fixed_capacity. cbn.
      destruct (cmod (r + a) (length d)); cbn; try reflexivity.
      destruct (index_set _ x d); reflexivity.
    - unfold static_dequeue, fixed_dequeue, fixed_capacity. cbn.
      destruct (a =? 0); [reflexivity|].
      destruct (cmod (r + 1) (length d)); cbn; try reflexivity.
      destruct (csub a 1); cbn; try reflexivity.
      destruct (index r d); reflexivity.
    - unfold q_bulk_enqueue. cbn. unfold static_expose_slots, fixed_expose_slots.
      rewrite static_writeable_eq by reflexivity.
      unfold fixed_capacity. cbn. destruct (a =? length d); [reflexivity|].
      unfold to_fixed. cbn.
      destruct (fixed_writeable_slice (mk_fixed d r a)) as [[o n]| |] eqn:E; cbn; try reflexivity.
      unfold static_write, fixed_write. cbn. rewrite static_writeable_eq by reflexivity.
      unfold to_fixed. cbn. rewrite E. cbn. reflexivity.
    - unfold q_bulk_dequeue. cbn. unfold static_expose_items, fixed_expose_items. cbn.
      destruct (a =? 0); [reflexivity|].
      change (static_readable_slice (length d) (mk_static d r a))
        with (fixed_readable_slice (mk_fixed d r a)). unfold to_fixed. cbn.
      destruct (fixed_readable_slice (mk_fixed d r a)) as [s| |]; cbn; try reflexivity.
      unfold static_consider_dequeued, fixed_consider_dequeued, fixed_capacity. cbn.
      destruct (cmod _ (length d)); cbn; try reflexivity.
      destruct (csub a _); reflexivity.
    - unfold static_expose_slots, fixed_expose_slots.
      rewrite static_writeable_eq by reflexivity.
      unfold fixed_capacity. cbn. destruct (a =? length d); [reflexivity|].
      unfold to_fixed. cbn.
      destruct (fixed_writeable_slice (mk_fixed d r a)) as [[o n]| |]; reflexivity.
    - unfold static_write, fixed_write. rewrite static_writeable_eq by reflexivity.
      unfold to_fixed at 1. cbn.
      destruct (fixed_writeable_slice (to_fixed (mk_static d r a))) as [[o n]| |]; reflexivity.
    - unfold static_expose_items, fixed_expose_items. cbn.
      destruct (a =? 0); [reflexivity|].
      change (static_readable_slice (length d) (mk_static d r a))
        with (fixed_readable_slice (mk_fixed d r a)). unfold to_fixed. cbn.
      destruct (fixed_readable_slice (mk_fixed d r a)) as [s| |]; reflexivity.
    - unfold static_consider_dequeued, fixed_consider_dequeued, fixed_capacity. cbn.
      destruct (cmod _ (length d)); cbn; try reflexivity.
      destruct (csub a _); reflexivity.
  Qed.

  Lemma fixed_do_cap : forall o (q q' : fixed T) r,
    q_do (fixed_queue T) o q = Ret (q', r) -> fixed_capacity q' = fixed_capacity q.
  Proof.
    assert (HW : forall ys (q : fixed T), fixed_capacity (fixed_write ys q) = fixed_capacity q).
    { intros ys q. unfold fixed_write. destruct (fixed_writeable_slice q) as [[o n]| |] eqn:E; try reflexivity.
      unfold fixed_capacity. cbn. rewrite length_blit; [reflexivity|].
      rewrite firstn_length.
      unfold fixed_writeable_slice, fixed_write_to in E.
      destruct (cmod _ _) as [wt| |] eqn:Em; cbn in E; try discriminate.
      assert (wt < length (fx_data q)).
      { unfold fixed_capacity in Em. destruct (length (fx_data q)) eqn:El; [discriminate|].
        cbn in Em. injection Em as <-. apply Nat.mod_upper_bound. lia. }
      destruct (fixed_is_data_contiguous q).
      - unfold slice in E. destruct (_ || _); cbn in E; [discriminate|]. injection E as <- <-.
        rewrite firstn_length, skipn_length. unfold fixed_capacity. lia.
      - unfold slice in E. destruct (_ || _); cbn in E; [discriminate|]. injection E as <- <-.
        rewrite firstn_length, skipn_length. lia. }
    intros o q q' r H. destruct o; cbn in H.
    - now injection H as <- <-.
    - now injection H as <- <-.
    - unfold fixed_enqueue in H. destruct (fx_amount q =? fixed_capacity q); cbn in H.
      + now injection H as <- <-.
      + destruct (fixed_write_to q); cbn in H; try discriminate.
        unfold index_set in H.
        destruct (Nat.ltb_spec a (length (fx_data q))); cbn in H; try discriminate.
        injection H as <- <-. unfold fixed_capacity. cbn. apply length_blit. cbn. lia.
    - unfold fixed_dequeue in H. destruct (fx_amount q =? 0); cbn in H.
      + now injection H as <- <-.
      + destruct (cmod _ _); cbn in H; try discriminate.
        destruct (csub _ _); cbn in H; try discriminate.
        destruct (index _ _); cbn in H; try discriminate. now injection H as <- <-.
    - unfold q_bulk_enqueue in H. cbn in H. unfold fixed_expose_slots in H.
      destruct (fx_amount q =? fixed_capacity q); cbn in H.
      + now injection H as <- <-.
      + destruct (fixed_writeable_slice q) as [[o n]| |]; cbn in H; try discriminate.
        injection H as <- <-. unfold fixed_capacity at 1. cbn. apply HW.
    - unfold q_bulk_dequeue in H. cbn in H. unfold fixed_expose_items in H.
      destruct (fx_amount q =? 0); cbn in H.
      + now injection H as <- <-.
      + destruct (fixed_readable_slice q); cbn in H; try discriminate.
        unfold fixed_consider_dequeued in H.
        destruct (cmod _ _); cbn in H; try discriminate.
        destruct (csub _ _); cbn in H; try discriminate. now injection H as <- <-.
    - unfold fixed_expose_slots in H. destruct (fx_amount q =? fixed_capacity q); cbn in H.
      + now injection H as <- <-.
      + destruct (fixed_writeable_slice q) as [[o n]| |]; cbn in H; try discriminate.
        now injection H as <- <-.
    - injection H as <- <-. apply HW.
    - now injection H as <- <-.
    - unfold fixed_expose_items in H. destruct (fx_amount q =? 0); cbn in H.
      + now injection H as <- <-.
      + destruct (fixed_readable_slice q); cbn in H; try discriminate. now injection H as <- <-.
    - unfold fixed_consider_dequeued in H.
      destruct (cmod _ _); cbn in H; try discriminate.
      destruct (csub _ _); cbn in H; try discriminate. now injection H as <- <-.
  Qed.

  Lemma static_do_wf : forall o (q q' : static T) r, static_wf N q ->
    q_do (static_queue N) o q = Ret (q', r) -> static_wf N q'.
  Proof.
    intros o q q' r H E. pose proof (static_do_eq o H) as Ef. rewrite E in Ef. cbn in Ef.
    symmetry in Ef. apply fixed_do_cap in Ef. unfold static_wf, fixed_capacity in *. cbn in Ef. lia.
  Qed.

  Lemma static_run_eq : forall ops (q : static T), static_wf N q ->
    omap (fun p => (to_fixed (fst p), snd p)) (q_run (static_queue N) ops q)
    = q_run (fixed_queue T) ops (to_fixed q).
  Proof.
    induction ops as [|o ops IH]; intros q H; [reflexivity|].
    cbn [q_run]. rewrite <- static_do_eq by exact H.
    destruct (q_do (static_queue N) o q) as [[q' r]| |] eqn:E; cbn [bind lift_do omap fst snd]; try reflexivity.
    rewrite <- IH by (eapply static_do_wf; eauto).
    destruct (q_run (static_queue N) ops q') as [[q'' rs]| |]; reflexivity.
  Qed.

  Lemma static_conforms_of_fixed : forall c ops (q : static T) a, static_wf N q ->
    q_conforms (fixed_queue T) c ops (to_fixed q) a ->
    q_conforms (static_queue N) c ops q a.
  Proof.
    intros c. induction ops as [|o ops IH]; intros q a H HC; [constructor|].
    inversion HC as [|? ? ? ? HP|? ? ? ? q' r a' HP HD HA HC']; subst.
    - now constructor.
    - rewrite <- static_do_eq in HD by exact H.
      destruct (q_do (static_queue N) o q) as [[q1 r1]| |] eqn:E; cbn in HD; try discriminate.
      injection HD as <- <-. eapply q_conforms_step; eauto.
      apply IH; [eapply static_do_wf; eauto|assumption].
  Qed.

  (** The relation under which a [Static] is a lawful queue. *)
  Definition static_R (q : static T) (items : list T) (k : nat) (w : list T) : Prop :=
    static_wf N q /\ fixed_R N (to_fixed q) items k w.

  Lemma static_lift : forall o (q : static T) q' r, static_wf N q ->
    q_do (fixed_queue T) o (to_fixed q) = Ret (q', r) ->
    exists q1, q_do (static_queue N) o q = Ret (q1, r) /\ to_fixed q1 = q' /\ static_wf N q1.
  Proof.
    intros o q q' r H E. rewrite <- static_do_eq in E by exact H.
    destruct (q_do (static_queue N) o q) as [[q1 r1]| |] eqn:E1; cbn in E; try discriminate.
    injection E as <- <-. exists q1. splits; auto. eapply static_do_wf; eauto.
  Qed.

  Ltac inv_do E :=
    match type of E with
    | bind ?m _ = _ => let o := fresh "o" in destruct m as [o| |] eqn:?; cbn in E; [|discriminate|discriminate]
    end.

  Theorem static_lawful : lawful_queue (static_queue N) N static_R.
  Proof.
    pose proof (@fixed_lawful T N) as L.
    constructor.
    - intros q items k w [H HR]. exact (lq_wf L HR).
    - intros q items k w [H HR]. split; [exact H|exact (lq_forget L HR)].
    - intros q items k w [H HR]. exact (lq_len L HR).
    - intros q items k w x [H HR] E. pose proof (lq_enqueue_full L x HR E) as E1.
      destruct (@static_lift (OpEnqueue x) q _ (AItem (Some x)) H ltac:(cbn [q_do]; rewrite E1; reflexivity))
        as (q1 & E2 & E3 & _). cbn in E2.
      cbn. destruct (static_enqueue N x q) as [[q2 r2]| |]; cbn in E2; try discriminate.
      injection E2 as -> ->. do 2 f_equal. destruct q, q1. cbn in E3. unfold to_fixed in E3. cbn in E3. congruence.
    - intros q items k w x [H HR] E. destruct (lq_enqueue L x HR E) as (q' & E1 & HR').
      destruct (@static_lift (OpEnqueue x) q _ (AItem None) H ltac:(cbn [q_do]; rewrite E1; reflexivity))
        as (q1 & E2 & E3 & H1). cbn in E2.
      cbn. destruct (static_enqueue N x q) as [[q2 r2]| |]; cbn in E2; try discriminate.
      injection E2 as -> ->. exists q1. split; [reflexivity|]. split; [exact H1|]. now rewrite E3.
    - intros q items k w [H HR] E. pose proof (lq_expose_slots_full L HR E) as E1.
      destruct (@static_lift OpExposeSlots q _ (ASlots None) H ltac:(cbn [q_do]; rewrite E1; reflexivity))
        as (q1 & E2 & E3 & _). cbn in E2.
      cbn. destruct (static_expose_slots N q) as [[q2 r2]| |]; cbn in E2; try discriminate.
      injection E2 as -> ->. do 2 f_equal. destruct q, q1. unfold to_fixed in E3. cbn in E3. congruence.
    - intros q items k w [H HR] E. destruct (lq_expose_slots L HR E) as (q' & n & E1 & Hn & Hn' & HR').
      destruct (@static_lift OpExposeSlots q _ (ASlots (Some n)) H ltac:(cbn [q_do]; rewrite E1; reflexivity))
        as (q1 & E2 & E3 & H1). cbn in E2.
      cbn. destruct (static_expose_slots N q) as [[q2 r2]| |]; cbn in E2; try discriminate.
      injection E2 as -> ->. exists q1, n. splits; auto. split; [exact H1|]. now rewrite E3.
    - intros q items k w ys [H HR] E. pose proof (lq_write L ys HR E) as HR'.
      destruct (@static_lift (OpWrite ys) q _ AUnit H eq_refl) as (q1 & E2 & E3 & H1).
      cbn in *. injection E2 as <-. split; [exact H1|]. now rewrite E3.
    - intros q items k w n [H HR] E. destruct (lq_consider_enqueued L n HR E) as (q' & E1 & HR').
      destruct (@static_lift (OpConsiderEnqueued n) q _ AUnit H ltac:(cbn in *; now injection E1 as <-))
        as (q1 & E2 & E3 & H1). cbn in *. injection E2 as <-.
      eexists. split; [reflexivity|]. split; [exact H1|]. injection E1 as <-. exact HR'.
    - intros q k w [H HR]. pose proof (lq_dequeue_empty L HR) as E1.
      destruct (@static_lift OpDequeue q _ (AItem None) H ltac:(cbn [q_do]; rewrite E1; reflexivity))
        as (q1 & E2 & E3 & _). cbn in E2.
      cbn. destruct (static_dequeue N q) as [[q2 r2]| |]; cbn in E2; try discriminate.
      injection E2 as -> ->. do 2 f_equal. destruct q, q1. unfold to_fixed in E3. cbn in E3. congruence.
    - intros q x items k w [H HR]. destruct (lq_dequeue L HR) as (q' & E1 & HR').
      destruct (@static_lift OpDequeue q _ (AItem (Some x)) H ltac:(cbn [q_do]; rewrite E1; reflexivity))
        as (q1 & E2 & E3 & H1). cbn in E2.
      cbn. destruct (static_dequeue N q) as [[q2 r2]| |]; cbn in E2; try discriminate.
      injection E2 as -> ->. exists q1. split; [reflexivity|]. split; [exact H1|]. now rewrite E3.
    - intros q k w [H HR]. pose proof (lq_expose_items_empty L HR) as E1.
      destruct (@static_lift OpExposeItems q _ (AItems None) H ltac:(cbn [q_do]; rewrite E1; reflexivity))
        as (q1 & E2 & E3 & _). cbn in E2.
      cbn. destruct (static_expose_items N q) as [[q2 r2]| |]; cbn in E2; try discriminate.
      injection E2 as -> ->. do 2 f_equal. destruct q, q1. unfold to_fixed in E3. cbn in E3. congruence.
    - intros q items k w [H HR] Hne. destruct (lq_expose_items L HR Hne) as (q' & s & rest & E1 & Hs & Hr & HR').
      destruct (@static_lift OpExposeItems q _ (AItems (Some s)) H ltac:(cbn [q_do]; rewrite E1; reflexivity))
        as (q1 & E2 & E3 & H1). cbn in E2.
      cbn. destruct (static_expose_items N q) as [[q2 r2]| |]; cbn in E2; try discriminate.
      injection E2 as -> ->. exists q1, s, rest. splits; auto. split; [exact H1|]. now rewrite E3.
    - intros q items k w n [H HR] E. destruct (lq_consider_dequeued L n HR E) as (q' & E1 & HR').
      destruct (@static_lift (OpConsiderDequeued n) q _ AUnit H ltac:(cbn in *; rewrite E1; reflexivity))
        as (q1 & E2 & E3 & H1). cbn in *.
      destruct (static_consider_dequeued N n q) as [q2| |]; cbn in E2; try discriminate.
      injection E2 as ->. exists q1. split; [reflexivity|]. split; [exact H1|]. now rewrite E3.
  Qed.

  Lemma static_new_R : forall tmp, 0 < N -> static_R (static_new_with_manual_tmps N tmp) [] 0 [].
  Proof.
    intros tmp H. split.
    - unfold static_wf. cbn. now rewrite map_length, seq_length.
    - apply (fixed_new_R tmp H).
  Qed.

  Lemma static_debug_eq : forall (q : static T), static_wf N q ->
    static_debug N q = omap (fun p => (snd (fst p), snd p)) (fixed_debug (to_fixed q)).
  Proof.
    intros [d r a] H. unfold static_wf in H. cbn in H. subst N.
    unfold static_debug, fixed_debug.
    change (static_debug_data (length d) (mk_static d r a)) with (fixed_debug_data (to_fixed (mk_static d r a))).
    destruct (fixed_debug_data (to_fixed (mk_static d r a))); reflexivity.
  Qed.

  Lemma to_fixed_inj : forall q1 q2 : static T, to_fixed q1 = to_fixed q2 -> q1 = q2.
  Proof. intros [] [] H. unfold to_fixed in H. cbn in H. congruence. Qed.

  Lemma static_enqueue_all_eq : forall xs (q : static T), static_wf N q ->
    omap to_fixed (q_enqueue_all (static_queue N) xs q) = q_enqueue_all (fixed_queue T) xs (to_fixed q).
  Proof.
    induction xs as [|x xs IH]; intros q H; [reflexivity|].
    cbn [q_enqueue_all]. pose proof (static_do_eq (OpEnqueue x) H) as E. cbn [q_do] in E.
    pose proof (@static_do_wf (OpEnqueue x) q) as W. cbn [q_do] in W.
    destruct (q_enqueue (static_queue N) x q) as [[q1 r1]| |];
      destruct (q_enqueue (fixed_queue T) x (to_fixed q)) as [[q2 r2]| |]; cbn in E; try discriminate;
      try reflexivity.
    injection E as <- <-. cbn [bind].
    destruct r1; [reflexivity|]. apply IH. eapply W; [exact H|reflexivity].
  Qed.

  Lemma static_dequeue_n_eq : forall n (q : static T), static_wf N q ->
    omap (fun p => (to_fixed (fst p), snd p)) (q_dequeue_n (static_queue N) n q)
    = q_dequeue_n (fixed_queue T) n (to_fixed q).
  Proof.
    induction n as [|n IH]; intros q H; [reflexivity|].
    cbn [q_dequeue_n]. pose proof (static_do_eq OpDequeue H) as E. cbn [q_do] in E.
    pose proof (@static_do_wf OpDequeue q) as W. cbn [q_do] in W.
    destruct (q_dequeue (static_queue N) q) as [[q1 r1]| |];
      destruct (q_dequeue (fixed_queue T) (to_fixed q)) as [[q2 r2]| |]; cbn in E; try discriminate;
      try reflexivity.
    injection E as <- <-. cbn [bind].
    destruct r1; [|reflexivity]. rewrite <- IH by (eapply W; [exact H|reflexivity]).
    destruct (q_dequeue_n (static_queue N) n q1) as [[]| |]; reflexivity.
  Qed.

  Lemma static_write_consider_eq : forall q items k w ys,
    static_R q items k w -> length ys <= k ->
    q_consider_enqueued (static_queue N) (length ys) (q_write (static_queue N) ys q)
    = q_enqueue_all (static_queue N) ys q.
  Proof.
    intros q items k w ys [H HR] Hys.
    pose proof (fixed_write_consider_eq ys HR Hys) as E.
    rewrite <- static_enqueue_all_eq in E by exact H.
    pose proof (static_do_eq (OpWrite ys) H) as Ew. cbn in Ew. injection Ew as Ew.
    rewrite <- Ew in E. cbn in *. unfold fixed_consider_enqueued, static_consider_enqueued in *. cbn in E.
    destruct (q_enqueue_all (static_queue N) ys q) as [q1| |]; cbn in E; try discriminate.
    injection E as E0 E1 E2. f_equal. destruct q1; cbn in *; congruence.
  Qed.

  Lemma static_consider_dequeued_eq : forall n q items k w,
    static_R q items k w -> n <= length items ->
    exists q', q_consider_dequeued (static_queue N) n q = Ret q' /\
               q_dequeue_n (static_queue N) n q = Ret (q', firstn n items).
  Proof.
    intros n q items k w [H HR] Hn.
    destruct (fixed_consider_dequeued_eq HR Hn) as (q' & E1 & E2).
    pose proof (static_do_eq (OpConsiderDequeued n) H) as E3. cbn in E3. rewrite E1 in E3. cbn in *.
    destruct (static_consider_dequeued N n q) as [q1| |]; cbn in E3; try discriminate.
    injection E3 as <-. exists q1. split; [reflexivity|].
    rewrite <- static_dequeue_n_eq in E2 by exact H.
    destruct (q_dequeue_n (static_queue N) n q) as [[q2 xs]| |]; cbn in E2; try discriminate.
    assert (Ex : xs = firstn n items) by congruence.
    assert (Eq : to_fixed q2 = to_fixed q1) by congruence. apply to_fixed_inj in Eq. now subst.
  Qed.

  Lemma static_debug_spec : forall q items k w, static_R q items k w ->
    static_debug N q = Ret (length items, items).
  Proof.
    intros q items k w [H HR]. rewrite static_debug_eq by exact H.
    now rewrite (fixed_debug_spec HR).
  Qed.
End StaticFixed2.

(** ** Capacity zero. *)
Section CapZero.
  Context {T : Type}.

  Definition not_consider_dequeued (o : qop T) : Prop :=
    match o with OpConsiderDequeued _ => False | _ => True end.

  Lemma fixed_zero_conforms : forall ops, Forall not_consider_dequeued ops ->
    q_conforms (fixed_queue T) 0 ops (mk_fixed [] 0 0) (mk_qabs [] 0 []).
  Proof.
    induction ops as [|o ops IH]; intros HF; [constructor|].
    inversion HF as [|? ? Ho HF']; subst. specialize (IH HF').
    destruct o; cbn in Ho; try contradiction.
    - eapply q_conforms_step; [exact I|reflexivity|cbn; auto|exact IH].
    - eapply q_conforms_step; [exact I|reflexivity|cbn; tauto|exact IH].
    - eapply q_conforms_step; [exact I|reflexivity|cbn; auto|exact IH].
    - eapply q_conforms_step; [exact I|reflexivity|cbn; auto|exact IH].
    - eapply q_conforms_step; [exact I|reflexivity| |exact IH]. cbn.
      splits; auto; lia || (split; auto).
    - eapply q_conforms_step; [exact I|reflexivity| |exact IH]. cbn.
      splits; auto; lia || (split; auto).
    - eapply q_conforms_step; [exact I|reflexivity|cbn; auto|exact IH].
    - destruct ys as [|y ys]; [|apply q_conforms_broken; cbn; lia].
      eapply q_conforms_step; [cbn; lia|reflexivity|cbn; reflexivity|exact IH].
    - destruct n; [|apply q_conforms_broken; cbn; lia].
      eapply q_conforms_step; [cbn; lia|reflexivity|cbn; reflexivity|exact IH].
    - eapply q_conforms_step; [exact I|reflexivity|cbn; auto|exact IH].
  Qed.

  Lemma static_zero_conforms : forall ops, Forall not_consider_dequeued ops ->
    q_conforms (static_queue 0) 0 ops (mk_static ([] : list T) 0 0) (mk_qabs [] 0 []).
  Proof.
    intros ops H. apply static_conforms_of_fixed; [reflexivity|]. now apply fixed_zero_conforms.
  Qed.
End CapZero.

(** Proofs about the queues with machine-word arithmetic. *)
From Coq Require Import Bool List Arith Lia.
From Verif Require Import Prelude ListFacts QueueModel QueueSpec QueueProofs WordModel.
Import ListNotations.
Set Implicit Arguments.

Section Words.
  Context (W : nat) (checked : bool) {T : Type}.

  Lemma wadd_ok : forall a b, a + b < W -> wadd W checked a b = Ret (a + b).
  Proof. intros a b H. unfold wadd. destruct (Nat.ltb_spec (a + b) W); [reflexivity|lia]. Qed.

  Lemma wsub_ok : forall a b, b <= a -> wsub W checked a b = Ret (a - b).
  Proof. intros a b H. unfold wsub. destruct (Nat.leb_spec b a); [reflexivity|lia]. Qed.

  Lemma csub_le : forall a b, b <= a -> csub a b = Ret (a - b).
  Proof. intros a b H. unfold csub. destruct (Nat.ltb_spec a b); [lia|reflexivity]. Qed.

  (** While the sum fits, the two models compute the same. *)
  Lemma word_write_to_eq : forall q : fixed T, fx_read q + fx_amount q < W ->
    word_write_to W checked q = fixed_write_to q.
  Proof. intros q H. unfold word_write_to. rewrite wadd_ok by exact H. reflexivity. Qed.

  Lemma word_contiguous_eq : forall q : fixed T, fx_read q + fx_amount q < W ->
    word_is_data_contiguous W checked q = Ret (fixed_is_data_contiguous q).
  Proof. intros q H. unfold word_is_data_contiguous. rewrite wadd_ok by exact H. reflexivity. Qed.

  Lemma word_readable_eq : forall q : fixed T, fx_read q + fx_amount q < W ->
    word_readable_slice W checked q = fixed_readable_slice q.
  Proof.
    intros q H. unfold word_readable_slice, fixed_readable_slice.
    rewrite word_contiguous_eq, word_write_to_eq by exact H. reflexivity.
  Qed.

  Lemma word_writeable_eq : forall q : fixed T, fx_read q + fx_amount q < W ->
    word_writeable_slice W checked q = fixed_writeable_slice q.
  Proof.
    intros q H. unfold word_writeable_slice, fixed_writeable_slice.
    rewrite word_contiguous_eq, word_write_to_eq by exact H.
    destruct (fixed_write_to q); reflexivity.
  Qed.

  Section Fits.
    Context (c : nat) (Hc : 2 * c <= W).

    Lemma word_lawful : lawful_queue (word_queue W checked T) c (fixed_R c).
    Proof.
      assert (B : forall (q : fixed T) items k w, fixed_R c q items k w ->
                fixed_capacity q = c /\ fx_read q < c /\ fx_amount q = length items /\
                length items + k <= c /\ length w <= k /\ fx_read q + fx_amount q < W).
      { intros q items k w (H0 & Hcap & Hr & Ha & Hk & Hw & _). lia. }
      pose proof (@fixed_lawful T c) as L. constructor; cbn.
      - exact (@lq_wf _ _ _ _ _ L).
      - exact (@lq_forget _ _ _ _ _ L).
      - exact (@lq_len _ _ _ _ _ L).
      - intros q items k w x HR E. rewrite <- (lq_enqueue_full L x HR E). cbn.
        destruct (B _ _ _ _ HR) as (Hcap & Hr & Ha & Hk & Hw & Hs).
        unfold word_enqueue, fixed_enqueue. rewrite Hcap.
        destruct (Nat.eqb_spec (fx_amount q) c); [reflexivity|lia].
      - intros q items k w x HR E.
        destruct (lq_enqueue L x HR E) as (q' & Eq & HR'). exists q'. split; [|exact HR'].
        rewrite <- Eq. cbn. destruct (B _ _ _ _ HR) as (Hcap & Hr & Ha & Hk & Hw & Hs).
        unfold word_enqueue, fixed_enqueue. rewrite word_write_to_eq by exact Hs.
        rewrite wadd_ok by lia. reflexivity.
      - intros q items k w HR E. rewrite <- (lq_expose_slots_full L HR E). cbn.
        destruct (B _ _ _ _ HR) as (Hcap & Hr & Ha & Hk & Hw & Hs).
        unfold word_expose_slots, fixed_expose_slots.
        rewrite word_writeable_eq by exact Hs. reflexivity.
      - intros q items k w HR E.
        destruct (lq_expose_slots L HR E) as (q' & n & Eq & Hn). exists q', n. split; [|exact Hn].
        rewrite <- Eq. cbn. destruct (B _ _ _ _ HR) as (Hcap & Hr & Ha & Hk & Hw & Hs).
        unfold word_expose_slots, fixed_expose_slots.
        rewrite word_writeable_eq by exact Hs. reflexivity.
      - intros q items k w ys HR E. pose proof (lq_write L ys HR E) as HR'. cbn in HR'.
        destruct (B _ _ _ _ HR) as (Hcap & Hr & Ha & Hk & Hw & Hs).
        unfold word_write. rewrite word_writeable_eq by exact Hs. exact HR'.
      - intros q items k w n HR E.
        destruct (lq_consider_enqueued L n HR E) as (q' & Eq & HR'). exists q'. split; [|exact HR'].
        rewrite <- Eq. cbn. destruct (B _ _ _ _ HR) as (Hcap & Hr & Ha & Hk & Hw & Hs).
        unfold word_consider_enqueued, fixed_consider_enqueued. rewrite wadd_ok by lia. reflexivity.
      - intros q k w HR. rewrite <- (lq_dequeue_empty L HR). cbn.
        destruct (B _ _ _ _ HR) as (Hcap & Hr & Ha & Hk & Hw & Hs).
        unfold word_dequeue, fixed_dequeue. cbn in Ha.
        destruct (Nat.eqb_spec (fx_amount q) 0); [reflexivity|lia].
      - intros q x items k w HR.
        destruct (lq_dequeue L HR) as (q' & Eq & HR'). exists q'. split; [|exact HR'].
        rewrite <- Eq. cbn. destruct (B _ _ _ _ HR) as (Hcap & Hr & Ha & Hk & Hw & Hs). cbn in Ha, Hk.
        unfold word_dequeue, fixed_dequeue.
        rewrite wadd_ok, wsub_ok, csub_le by lia. reflexivity.
      - intros q k w HR. rewrite <- (lq_expose_items_empty L HR). cbn.
        destruct (B _ _ _ _ HR) as (Hcap & Hr & Ha & Hk & Hw & Hs).
        unfold word_expose_items, fixed_expose_items.
        rewrite word_readable_eq by exact Hs. reflexivity.
      - intros q items k w HR E.
        destruct (lq_expose_items L HR E) as (q' & s & rest & Eq & Hn).
        exists q', s, rest. split; [|exact Hn].
        rewrite <- Eq. cbn. destruct (B _ _ _ _ HR) as (Hcap & Hr & Ha & Hk & Hw & Hs).
        unfold word_expose_items, fixed_expose_items.
        rewrite word_readable_eq by exact Hs. reflexivity.
      - intros q items k w n HR E.
        destruct (lq_consider_dequeued L n HR E) as (q' & Eq & HR'). exists q'. split; [|exact HR'].
        rewrite <- Eq. cbn. destruct (B _ _ _ _ HR) as (Hcap & Hr & Ha & Hk & Hw & Hs).
        unfold word_consider_dequeued, fixed_consider_dequeued.
        rewrite wadd_ok, wsub_ok, csub_le by lia. reflexivity.
    Qed.

    Lemma word_conforms : forall tmp ops, 0 < c ->
      q_conforms (word_queue W checked T) c ops (fixed_new_with_manual_tmps c tmp) (mk_qabs [] 0 []).
    Proof.
      intros tmp ops H. eapply lawful_conforms; [apply word_lawful|now apply fixed_new_R].
    Qed.

    (** In the reachable states a permitted call does exactly what it does with
        unbounded numbers. *)
    Lemma word_do_eq : forall (q : fixed T) items k w o, fixed_R c q items k w ->
      q_permitted (mk_qabs items k w) o ->
      q_do (word_queue W checked T) o q = q_do (fixed_queue T) o q.
    Proof.
      intros q items k w o HR HP.
      pose proof HR as (H0 & Hcap & Hr & Ha & Hk & Hw & _).
      assert (Hs : fx_read q + fx_amount q < W) by lia.
      assert (Ei : word_expose_items W checked q = fixed_expose_items q)
        by (unfold word_expose_items, fixed_expose_items; now rewrite word_readable_eq by exact Hs).
      assert (Es : word_expose_slots W checked q = fixed_expose_slots q)
        by (unfold word_expose_slots, fixed_expose_slots; now rewrite word_writeable_eq by exact Hs).
      assert (Ew : forall ys, word_write W checked ys q = fixed_write ys q)
        by (intros ys; unfold word_write, fixed_write; now rewrite word_writeable_eq by exact Hs).
      assert (Ed : forall n, n <= length items ->
                word_consider_dequeued W checked n q = fixed_consider_dequeued n q).
      { intros n Hn. unfold word_consider_dequeued, fixed_consider_dequeued.
        rewrite wadd_ok, wsub_ok, csub_le by lia. reflexivity. }
      destruct o; cbn [q_do]; cbn [q_permitted qa_items qa_slots qa_written] in HP; try reflexivity.
      - cbn. unfold word_enqueue, fixed_enqueue. rewrite word_write_to_eq by exact Hs.
        destruct (Nat.eqb_spec (fx_amount q) (fixed_capacity q)); [reflexivity|].
        rewrite wadd_ok by lia. reflexivity.
      - cbn. unfold word_dequeue, fixed_dequeue.
        destruct (Nat.eqb_spec (fx_amount q) 0); [reflexivity|].
        rewrite wadd_ok, wsub_ok, csub_le by lia. reflexivity.
      - unfold q_bulk_enqueue. cbn. rewrite Es.
        destruct (Nat.eq_dec (length items) c) as [E|E].
        + pose proof (lq_expose_slots_full (@fixed_lawful T c) HR E) as X. cbn in X. now rewrite X.
        + destruct (lq_expose_slots (@fixed_lawful T c) HR ltac:(lia)) as (q' & n & X & H1 & H2 & HR').
          cbn in X. rewrite X. cbn [bind].
          assert (Eq : q' = q).
          { unfold fixed_expose_slots in X.
            destruct (fx_amount q =? fixed_capacity q); [discriminate|].
            destruct (fixed_writeable_slice q) as [[? ?]| |]; cbn in X; congruence. }
          subst q'. rewrite Ew. unfold word_consider_enqueued, fixed_consider_enqueued.
          rewrite wadd_ok; [reflexivity|].
          replace (fx_amount (fixed_write (firstn (Nat.min n (length buf)) buf) q)) with (fx_amount q).
          * lia.
          * unfold fixed_write. destruct (fixed_writeable_slice q) as [[? ?]| |]; reflexivity.
      - unfold q_bulk_dequeue. cbn. rewrite Ei.
        destruct items as [|x items].
        + pose proof (lq_expose_items_empty (@fixed_lawful T c) HR) as X. cbn in X. now rewrite X.
        + destruct (@fixed_expose_items_spec T c q (x :: items) k w HR ltac:(discriminate))
            as (n & X & Hn & _).
          rewrite X. cbn [bind]. rewrite Ed; [reflexivity|]. rewrite firstn_length. lia.
      - cbn. now rewrite Es.
      - cbn. now rewrite Ew.
      - cbn. unfold word_consider_enqueued, fixed_consider_enqueued. rewrite wadd_ok by lia. reflexivity.
      - cbn. now rewrite Ei.
      - cbn. now rewrite Ed.
    Qed.

    Lemma word_history_iff : forall q a h q' a',
      fixed_R c q (qa_items a) (qa_slots a) (qa_written a) ->
      q_history (word_queue W checked T) c q a h q' a' <-> q_history (fixed_queue T) c q a h q' a'.
    Proof.
      intros q a h q' a' HR.
      split; intros H; revert HR;
        induction H as [|q a o q1 r a1 h q2 a2 HP HD HA HH IH]; intros HR; try apply q_history_nil.
      - assert (HD' : q_do (fixed_queue T) o q = Ret (q1, r)).
        { rewrite <- HD. symmetry. destruct a as [i k w]. eapply word_do_eq; eauto. }
        eapply q_history_step; eauto. apply IH.
        eapply (lawful_history (@fixed_lawful T c)); [exact HR|].
        eapply q_history_step; eauto. apply q_history_nil.
      - assert (HD' : q_do (word_queue W checked T) o q = Ret (q1, r)).
        { rewrite <- HD. destruct a as [i k w]. eapply word_do_eq; eauto. }
        eapply q_history_step; eauto. apply IH.
        eapply (lawful_history (@fixed_lawful T c)); [exact HR|].
        eapply q_history_step; eauto. apply q_history_nil.
    Qed.
  End Fits.

  (** ** Above the bound *)
  Section Overflows.
    Context (c : nat) (Hlow : W < 2 * c) (Hhigh : c < W).

    Lemma word_full_at_end_panics : forall q : fixed T,
      fixed_capacity q = c -> fx_read q = c - 1 -> fx_amount q = c ->
      word_expose_items W checked q = Panic.
    Proof.
      intros q Hcap Hr Ha. unfold word_expose_items.
      destruct (Nat.eqb_spec (fx_amount q) 0); [lia|].
      unfold word_readable_slice, word_is_data_contiguous, word_write_to, wadd.
      rewrite Hcap, Hr, Ha.
      destruct (Nat.ltb_spec (c - 1 + c) W); [lia|].
      destruct checked; [reflexivity|]. cbn [bind].
      destruct (Nat.ltb_spec (c - 1 + c - W) c); [|lia].
      rewrite cmod_ok by lia. cbn [bind]. rewrite Nat.mod_small by lia.
      unfold slice. destruct (Nat.ltb_spec (c - 1 + c - W) (c - 1)); [reflexivity|lia].
    Qed.

    (** Writing into exposed slots changes neither the size nor the positions. *)
    Lemma word_write_shape : forall ys (q : fixed T), fixed_capacity q = c ->
      fixed_capacity (word_write W checked ys q) = c /\
      fx_read (word_write W checked ys q) = fx_read q /\
      fx_amount (word_write W checked ys q) = fx_amount q.
    Proof.
      intros ys q Hcap. unfold word_write.
      destruct (word_writeable_slice W checked q) as [[o n]| |] eqn:E; auto.
      cbn. split; [|auto]. unfold fixed_capacity in *. cbn. rewrite <- Hcap.
      assert (Hb : o + n <= length (fx_data q)).
      { unfold word_writeable_slice in E.
        destruct (word_write_to W checked q) as [o'| |]; cbn in E; try discriminate.
        destruct (word_is_data_contiguous W checked q) as [b| |]; cbn in E; try discriminate.
        assert (G : forall lo hi s, slice lo hi (fx_data q) = Ret s -> lo + length s <= length (fx_data q)).
        { intros lo hi s. unfold slice.
          destruct (Nat.ltb_spec hi lo); cbn; [discriminate|].
          destruct (Nat.ltb_spec (length (fx_data q)) hi); cbn; [discriminate|].
          intros G. injection G as <-. rewrite firstn_length, skipn_length. lia. }
        destruct b.
        - destruct (slice o' (fixed_capacity q) (fx_data q)) as [s| |] eqn:Es; cbn in E; try discriminate.
          injection E as <- <-. eapply G; eauto.
        - destruct (slice o' (fx_read q) (fx_data q)) as [s| |] eqn:Es; cbn in E; try discriminate.
          injection E as <- <-. eapply G; eauto. }
      apply length_blit. rewrite firstn_length. lia.
    Qed.

    Lemma word_slots_low : forall q : fixed T, fixed_capacity q = c ->
      fx_read q + fx_amount q < c ->
      word_expose_slots W checked q = Ret (q, Some (c - (fx_read q + fx_amount q))).
    Proof.
      intros q Hcap Hs. unfold word_expose_slots. rewrite Hcap.
      destruct (Nat.eqb_spec (fx_amount q) c); [lia|].
      rewrite word_writeable_eq by lia.
      unfold fixed_writeable_slice, fixed_write_to, fixed_is_data_contiguous. rewrite Hcap.
      rewrite cmod_ok by lia. cbn [bind]. rewrite Nat.mod_small by lia.
      unfold fixed_capacity in Hcap.
      destruct (Nat.ltb_spec (fx_read q + fx_amount q) c); [|lia].
      rewrite slice_ok by lia. cbn [bind]. rewrite firstn_length, skipn_length, Hcap.
      do 3 f_equal. lia.
    Qed.

    Lemma word_slots_wrapped : forall q : fixed T, fixed_capacity q = c ->
      fx_read q + fx_amount q = c -> fx_amount q < c ->
      word_expose_slots W checked q = Ret (q, Some (fx_read q)).
    Proof.
      intros q Hcap Hs Ha. unfold word_expose_slots. rewrite Hcap.
      destruct (Nat.eqb_spec (fx_amount q) c); [lia|].
      rewrite word_writeable_eq by lia.
      unfold fixed_writeable_slice, fixed_write_to, fixed_is_data_contiguous. rewrite Hcap.
      rewrite cmod_ok by lia. cbn [bind]. rewrite Hs, Nat.mod_same by lia.
      unfold fixed_capacity in Hcap.
      destruct (Nat.ltb_spec c c); [lia|].
      rewrite slice_ok by lia. cbn [bind]. rewrite firstn_length, skipn_length, Hcap.
      do 3 f_equal. lia.
    Qed.

    (** The calls that fill the queue with the read position at the last cell. *)
    Definition word_witness (t : T) : list (qop T * qans T) :=
      [(OpExposeSlots, ASlots (Some c)); (OpWrite (repeat t (c - 1)), AUnit);
       (OpConsiderEnqueued (c - 1), AUnit); (OpConsiderDequeued (c - 1), AUnit);
       (OpExposeSlots, ASlots (Some 1)); (OpWrite [t], AUnit); (OpConsiderEnqueued 1, AUnit);
       (OpExposeSlots, ASlots (Some (c - 1))); (OpWrite (repeat t (c - 1)), AUnit);
       (OpConsiderEnqueued (c - 1), AUnit)].

    Lemma word_overflow : forall tmp t, exists q a,
      q_history (word_queue W checked T) c (fixed_new_with_manual_tmps c tmp) (mk_qabs [] 0 [])
        (word_witness t) q a /\
      length (qa_items a) = c /\
      q_do (word_queue W checked T) OpExposeItems q = Panic.
    Proof.
      intros tmp t.
      set (q0 := fixed_new_with_manual_tmps c tmp).
      assert (C0 : fixed_capacity q0 = c)
        by (unfold fixed_capacity, q0; cbn; now rewrite map_length, seq_length).
      set (q1 := word_write W checked (repeat t (c - 1)) q0).
      destruct (word_write_shape (repeat t (c - 1)) q0 C0) as (C1 & R1 & A1). fold q1 in C1, R1, A1.
      cbn in R1, A1.
      set (q2 := mk_fixed (fx_data q1) (fx_read q1) (fx_amount q1 + (c - 1))).
      set (q3 := mk_fixed (fx_data q2) (c - 1) 0).
      assert (C3 : fixed_capacity q3 = c) by exact C1.
      set (q4 := word_write W checked [t] q3).
      destruct (word_write_shape [t] q3 C3) as (C4 & R4 & A4). fold q4 in C4, R4, A4. cbn in R4, A4.
      set (q5 := mk_fixed (fx_data q4) (fx_read q4) (fx_amount q4 + 1)).
      assert (C5 : fixed_capacity q5 = c) by exact C4.
      set (q6 := word_write W checked (repeat t (c - 1)) q5).
      destruct (word_write_shape (repeat t (c - 1)) q5 C5) as (C6 & R6 & A6). fold q6 in C6, R6, A6.
      cbn in R6, A6.
      set (q7 := mk_fixed (fx_data q6) (fx_read q6) (fx_amount q6 + (c - 1))).
      assert (F1 : firstn (c - 1) (repeat t (c - 1)) = repeat t (c - 1))
        by (apply firstn_all2; rewrite repeat_length; lia).
      assert (S1 : skipn (c - 1) (repeat t (c - 1)) = [])
        by (apply skipn_all2; rewrite repeat_length; lia).
      exists q7. exists (mk_qabs (t :: repeat t (c - 1)) (c - 1 - (c - 1)) []).
      split; [|split].
      - unfold word_witness.
        apply q_history_step with (q' := q0) (a' := mk_qabs [] c []); [exact Logic.I| | |].
        { cbn [q_do q_expose_slots word_queue]. rewrite word_slots_low by (cbn; try exact C0; lia).
          cbn. now rewrite Nat.sub_0_r. }
        { cbn. split; [lia|split; [lia|reflexivity]]. }
        apply q_history_step with (q' := q1) (a' := mk_qabs [] c (repeat t (c - 1))).
        { cbn. rewrite repeat_length. lia. }
        { reflexivity. }
        { cbn. unfold overlay. now rewrite skipn_nil, app_nil_r. }
        apply q_history_step with (q' := q2) (a' := mk_qabs (repeat t (c - 1)) (c - (c - 1)) []).
        { cbn. rewrite repeat_length. lia. }
        { cbn. unfold word_consider_enqueued. rewrite wadd_ok by lia. reflexivity. }
        { cbn. now rewrite F1, S1. }
        apply q_history_step with (q' := q3) (a' := mk_qabs [] (c - (c - 1)) []).
        { cbn. rewrite repeat_length. lia. }
        { cbn. unfold word_consider_dequeued. cbn [fx_read fx_amount fx_data q2].
          rewrite wadd_ok by lia. cbn [bind].
          change (fixed_capacity q2) with (fixed_capacity q1). rewrite C1.
          rewrite cmod_ok by lia. cbn [bind]. rewrite R1, A1, Nat.mod_small by lia.
          rewrite wsub_ok by lia. cbn [bind]. unfold q3. do 3 f_equal. cbn. lia. }
        { cbn. now rewrite S1. }
        apply q_history_step with (q' := q3) (a' := mk_qabs [] 1 []); [exact Logic.I| | |].
        { cbn [q_do q_expose_slots word_queue]. rewrite word_slots_low by (cbn; try exact C3; lia).
          cbn. do 4 f_equal. lia. }
        { cbn. split; [lia|split; [lia|reflexivity]]. }
        apply q_history_step with (q' := q4) (a' := mk_qabs [] 1 [t]).
        { cbn. lia. }
        { reflexivity. }
        { reflexivity. }
        apply q_history_step with (q' := q5) (a' := mk_qabs [t] 0 []).
        { cbn. lia. }
        { cbn. unfold word_consider_enqueued. rewrite wadd_ok by lia. reflexivity. }
        { reflexivity. }
        apply q_history_step with (q' := q5) (a' := mk_qabs [t] (c - 1) []); [exact Logic.I| | |].
        { cbn [q_do q_expose_slots word_queue].
          rewrite word_slots_wrapped by (cbn; try exact C5; lia).
          cbn. now rewrite R4. }
        { cbn. split; [lia|split; [lia|reflexivity]]. }
        apply q_history_step with (q' := q6) (a' := mk_qabs [t] (c - 1) (repeat t (c - 1))).
        { cbn. rewrite repeat_length. lia. }
        { reflexivity. }
        { cbn. unfold overlay. now rewrite skipn_nil, app_nil_r. }
        apply q_history_step with (q' := q7) (a' := mk_qabs (t :: repeat t (c - 1)) (c - 1 - (c - 1)) []).
        { cbn. rewrite repeat_length. lia. }
        { cbn. unfold word_consider_enqueued. rewrite wadd_ok by lia. reflexivity. }
        { cbn. now rewrite F1, S1. }
        apply q_history_nil.
      - cbn. rewrite repeat_length. lia.
      - cbn [q_do q_expose_items word_queue]. rewrite word_full_at_end_panics; [reflexivity|exact C6| |];
          cbn; lia.
    Qed.
  End Overflows.
End Words.

(** A call that panics after a history refutes conformance. *)
Lemma conforms_history : forall Q T (I : queue Q T) c h ops q a q' a',
  q_history I c q a h q' a' -> q_conforms I c (map fst h ++ ops) q a -> q_conforms I c ops q' a'.
Proof.
  intros Q T I c h ops q a q' a' H.
  induction H as [|q a o q1 r a1 h q2 a2 HP HD HA HH IH]; [auto|].
  intros C. apply IH. cbn in C. inversion C as [|? ? ? ? N|? ? ? ? q1' r' a1' _ HD' HA' C' E1 E2 E3]; subst.
  - contradiction.
  - rewrite HD in HD'. injection HD' as <- <-.
    now rewrite (@q_answer_det T c a o r a1 a1' HA HA').
Qed.

Lemma word_queue_iff : forall W checked T c (tmp : nat -> T), 0 < c -> c < W ->
  (forall ops, q_conforms (word_queue W checked T) c ops (fixed_new_with_manual_tmps c tmp)
     (mk_qabs [] 0 [])) <-> 2 * c <= W.
Proof.
  intros W checked T c tmp H0 HW. split.
  - intros C. destruct (Nat.le_gt_cases (2 * c) W) as [|Hl]; [assumption|exfalso].
    destruct (@word_overflow W checked T c Hl HW tmp (tmp 0)) as (q & a & HH & _ & HP).
    specialize (C (map fst (word_witness c (tmp 0)) ++ [OpExposeItems])).
    pose proof (@conforms_history _ _ _ _ _ _ _ _ _ _ HH C) as C'.
    inversion C' as [|? ? ? ? N|? ? ? ? q1' r' a1' _ HD' _ _]; subst.
    + apply N. exact Logic.I.
    + congruence.
  - intros Hl ops. now apply word_conforms.
Qed.

(** Proofs about the fuzz targets. *)
From Coq Require Import Bool List Arith Lia.
From Verif Require Import Prelude ListFacts QueueModel QueueSpec Traits Contracts ContractFacts PipeSpec PipeProofs
  BasicModel BasicSpec BasicProofs AdaptorModel ScramblerModel MergeModel FuzzModel FuzzSpec.
Import ListNotations.
Set Implicit Arguments.
Set Warnings "-abstract-large-number".

(** ** Assertions *)

Lemma bind_Ret : forall A B (m : outcome A) (k : A -> outcome B) b,
  bind m k = Ret b <-> exists a, m = Ret a /\ k a = Ret b.
Proof.
  intros A B m k b. split.
  - destruct m as [a| |]; cbn; intros H; try discriminate. eauto.
  - intros (a & -> & H). exact H.
Qed.

Lemma assert_Ret : forall b, assert b = Ret tt <-> b = true.
Proof. intros [|]; cbn; split; congruence. Qed.

Lemma eqb_true : forall X (H : eq_dec X) (x y : X), eqb x y = true <-> x = y.
Proof. intros X H x y. unfold eqb. destruct (eqd x y); split; congruence. Qed.

Lemma eqb_refl : forall X (H : eq_dec X) (x : X), eqb x x = true.
Proof. intros. now apply eqb_true. Qed.

Lemma assert_eq_Ret : forall X (H : eq_dec X) (x y : X), assert_eq x y = Ret tt <-> x = y.
Proof. intros. unfold assert_eq. rewrite assert_Ret. apply eqb_true. Qed.

Lemma assert_eq_refl : forall X (H : eq_dec X) (x : X), assert_eq x x = Ret tt.
Proof. intros. now apply assert_eq_Ret. Qed.

(** A bind whose first part returns nothing of interest. *)
Lemma seq_Ret : forall (m : outcome unit) (B : Type) (k : outcome B) b,
  bind m (fun _ => k) = Ret b <-> m = Ret tt /\ k = Ret b.
Proof.
  intros m B k b. rewrite bind_Ret. split.
  - intros ([] & H). exact H.
  - intros H. now exists tt.
Qed.

Lemma slice_to_Ret : forall T n (l r : list T), slice_to n l = Ret r <-> n <= length l /\ r = firstn n l.
Proof.
  intros T n l r. unfold slice_to. destruct (Nat.ltb_spec (length l) n); split; intros H'; try discriminate; try lia.
  - injection H' as <-. auto.
  - destruct H' as [_ ->]. reflexivity.
Qed.

Lemma slice_from_Ret : forall T n (l r : list T), slice_from n l = Ret r <-> n <= length l /\ r = skipn n l.
Proof.
  intros T n l r. unfold slice_from. destruct (Nat.ltb_spec (length l) n); split; intros H'; try discriminate; try lia.
  - injection H' as <-. auto.
  - destruct H' as [_ ->]. reflexivity.
Qed.

Lemma same_con_iff : forall a b, assert_same_con a b = Ret tt <-> same_con a b.
Proof.
  intros a b. unfold assert_same_con, same_con. rewrite bind_Ret. split.
  - intros (x & E1 & H). apply bind_Ret in H as (y & E2 & H). apply assert_Ret in H.
    rewrite !andb_true_iff, !eqb_true in H. destruct H as [[-> H1] H2]. eauto.
  - intros (x & E1 & E2 & E3 & E4). exists x. split; [exact E1|]. rewrite E2. cbn [bind].
    apply assert_Ret. rewrite !andb_true_iff, !eqb_true. auto.
Qed.

Lemma same_pro_iff : forall a b, assert_same_pro a b = Ret tt <-> same_pro a b.
Proof.
  intros a b. unfold assert_same_pro, same_pro. rewrite assert_Ret, andb_true_iff, !eqb_true. tauto.
Qed.

(** ** Queues *)

Lemma push_first_spec : forall items count amount control,
  push_first count amount items control = control ++ firstn (amount - count) items.
Proof.
  induction items as [|x items IH]; intros count amount control; cbn.
  - now rewrite firstn_nil, app_nil_r.
  - destruct (Nat.leb_spec amount count) as [H|H].
    + replace (amount - count) with 0 by lia. now rewrite app_nil_r.
    + rewrite IH. replace (amount - count) with (S (amount - (count + 1))) by lia. cbn. now rewrite <- app_assoc.
Qed.

Lemma pop_first_spec : forall amount control buf,
  pop_first amount control buf = (skipn amount control, buf ++ firstn amount control).
Proof.
  induction amount as [|n IH]; intros control buf; cbn.
  - now rewrite app_nil_r.
  - destruct control as [|x control]; rewrite IH.
    + now rewrite firstn_nil, skipn_nil, app_nil_r.
    + now rewrite <- app_assoc.
Qed.

Section Queues.
  Context {Q : Type} (I : queue Q nat) (cap : nat).

  (** One operation. *)
  Lemma fuzz_queue_step_iff : forall o q c q' c',
    fuzz_queue_step I cap o q c = Ret (q', c') <->
    if fop_called o then
      exists r, q_do I (fop_call o) q = Ret (q', r) /\
      match o, r with
      | FEnqueue x, AItem a =>
          if length c <? cap then a = None /\ c' = c ++ [x] else a = Some x /\ c' = c
      | FDequeue, AItem a => a = hd_error c /\ c' = tl c
      | FBulkEnqueue xs, ANat n => c' = c ++ firstn n xs
      | FBulkDequeue _, ABuf buf n =>
          n <= length buf /\ n <= length c /\ firstn n buf = firstn n c /\ c' = skipn n c
      | _, _ => False
      end
    else q' = q /\ c' = c.
  Proof.
    intros [x| |xs|n] q c q' c'; cbn [fop_called fop_call q_do fuzz_queue_step].
    - destruct (Nat.leb_spec cap (length c)) as [H|H].
      + destruct (Nat.ltb_spec (length c) cap) as [H'|_]; [lia|].
        destruct (q_enqueue I x q) as [[q1 r]| |]; cbn [bind].
        * rewrite bind_Ret. split.
          -- intros ([] & H1 & H2). apply assert_eq_Ret in H1. injection H2 as <- <-. eexists; split; [reflexivity|]; cbn; auto.
          -- intros (r0 & H1 & H2). injection H1 as <- <-. destruct H2 as [-> ->]. exists tt.
             split; [apply assert_eq_refl|reflexivity].
        * split; [discriminate|]. intros (r & H1 & _). discriminate.
        * split; [discriminate|]. intros (r & H1 & _). discriminate.
      + destruct (Nat.ltb_spec (length c) cap) as [_|H']; [|lia].
        destruct (q_enqueue I x q) as [[q1 r]| |]; cbn [bind].
        * rewrite bind_Ret. split.
          -- intros ([] & H1 & H2). apply assert_eq_Ret in H1. injection H2 as <- <-. eexists; split; [reflexivity|]; cbn; auto.
          -- intros (r0 & H1 & H2). injection H1 as <- <-. destruct H2 as [-> ->]. exists tt.
             split; [apply assert_eq_refl|reflexivity].
        * split; [discriminate|]. intros (r & H1 & _). discriminate.
        * split; [discriminate|]. intros (r & H1 & _). discriminate.
    - destruct (q_dequeue I q) as [[q1 r]| |]; cbn [bind].
      + destruct c as [|y c]; rewrite bind_Ret; (split; [intros ([] & H1 & H2); apply assert_eq_Ret in H1; injection H2 as <- <-; eexists; split; [reflexivity|]; cbn; auto
          |intros (r0 & H1 & H2); injection H1 as <- <-; cbn in H2; destruct H2 as [-> ->]; exists tt; split; [apply assert_eq_refl|reflexivity]]).
      + destruct c; (split; [discriminate|]; intros (r & H1 & _); discriminate).
      + destruct c; (split; [discriminate|]; intros (r & H1 & _); discriminate).
    - destruct (q_bulk_enqueue I xs q) as [[q1 n]| |]; cbn [bind].
      + rewrite push_first_spec, Nat.sub_0_r. split.
        * intros [= <- <-]. eexists; split; [reflexivity|]. reflexivity.
        * intros (r & H1 & H2). injection H1 as <- <-. now rewrite H2.
      + split; [discriminate|]. intros (r & H1 & _). discriminate.
      + split; [discriminate|]. intros (r & H1 & _). discriminate.
    - destruct n as [|n]; [cbn; split; [intros [= <- <-]; auto|intros [-> ->]; reflexivity]|].
      destruct (Nat.ltb_spec 0 (S n)) as [_|H]; [|lia].
      destruct (q_bulk_dequeue I (repeat 0 (S n)) q) as [[q1 [buf m]]| |]; cbn [bind].
      + rewrite pop_first_spec. cbn [app]. split.
        * intros H. apply bind_Ret in H as (y & H1 & H). apply slice_to_Ret in H1 as [H1 ->].
          apply bind_Ret in H as (y & H2 & H). apply slice_to_Ret in H2 as [H2 ->].
          apply seq_Ret in H as [H3 H]. apply assert_eq_Ret in H3. injection H as <- <-.
          eexists; split; [reflexivity|]. rewrite firstn_length in H2.
          rewrite firstn_firstn, Nat.min_id in H3. cbn. splits; auto. lia.
        * intros (r & H1 & H2). injection H1 as <- <-. destruct H2 as (H1 & H2 & H3 & ->).
          rewrite slice_to_ok by lia. cbn [bind].
          rewrite slice_to_ok by (rewrite firstn_length; lia). cbn [bind].
          rewrite firstn_firstn, Nat.min_id, H3, assert_eq_refl. reflexivity.
      + split; [discriminate|]. intros (r & H1 & _). discriminate.
      + split; [discriminate|]. intros (r & H1 & _). discriminate.
  Qed.

  Lemma fuzz_queue_loop_iff : forall os q c,
    fuzz_queue_loop I cap os q c = Ret tt <->
    exists q' rs, q_run I (map fop_call (filter fop_called os)) q = Ret (q', rs) /\
      fifo_sees cap c (filter fop_called os) rs.
  Proof.
    induction os as [|o os IH]; intros q c; cbn [fuzz_queue_loop filter map q_run].
    - split; [|reflexivity]. intros _. exists q, []. split; [reflexivity|exact Logic.I].
    - rewrite bind_Ret. split.
      + intros ([q1 c1] & H1 & H2). apply fuzz_queue_step_iff in H1. apply IH in H2 as (q' & rs & H2 & H3).
        destruct (fop_called o) eqn:Eo; cbn [filter map q_run]; [|destruct H1 as [-> ->]; eauto].
        destruct H1 as (r & H1 & H4). exists q', (r :: rs). rewrite H1. cbn [bind]. rewrite H2. cbn [bind].
        split; [reflexivity|]. destruct o as [x| |xs|n]; destruct r; try contradiction; cbn [fifo_sees].
        * destruct (length c <? cap); destruct H4 as [-> ->]; auto.
        * destruct H4 as [-> ->]. auto.
        * subst. exact H3.
        * destruct H4 as (H4 & H5 & H6 & ->). auto.
      + intros (q' & rs & H1 & H2). destruct (fop_called o) eqn:Eo; cbn [filter map q_run] in H1, H2.
        * apply bind_Ret in H1 as ([q1 r] & H1 & H3). apply bind_Ret in H3 as ([q2 rs2] & H3 & H4).
          injection H4 as <- <-.
          assert (HX : exists c1, fuzz_queue_step I cap o q c = Ret (q1, c1) /\ fifo_sees cap c1 (filter fop_called os) rs2).
          { setoid_rewrite fuzz_queue_step_iff. rewrite Eo.
            destruct o as [x| |xs|n]; destruct r; cbn [fifo_sees] in H2; try contradiction.
            - destruct (length c <? cap); destruct H2 as [-> H2]; eexists; (split; [|exact H2]);
                eexists; (split; [exact H1|]); cbn; auto.
            - destruct H2 as [-> H2]. eexists; (split; [|exact H2]); eexists; (split; [exact H1|]); cbn; auto.
            - eexists; (split; [|exact H2]); eexists; (split; [exact H1|]); reflexivity.
            - destruct H2 as (A1 & A2 & A3 & H2). eexists; (split; [|exact H2]); eexists; (split; [exact H1|]); cbn; auto. }
          destruct HX as (c1 & H4 & H5). exists (q1, c1). split; [exact H4|]. apply IH. eauto.
        * exists (q, c). split; [apply fuzz_queue_step_iff; rewrite Eo; auto|]. apply IH. eauto.
  Qed.

  (** A queue that behaves as a bounded first-in-first-out list passes. *)
  Lemma conforming_queue_passes : forall os q a,
    q_conforms I cap (map fop_call (filter fop_called os)) q a ->
    fuzz_queue_loop I cap os q (qa_items a) = Ret tt.
  Proof.
    induction os as [|o os IH]; intros q a H; cbn [fuzz_queue_loop]; [reflexivity|].
    destruct (fop_called o) eqn:Eo; cbn [filter map] in H; rewrite Eo in H.
    - cbn [map] in H. inversion H as [|? ? ? ? HP|o' ops' q0 a0 q1 r a1 HP HD HA HC]; subst.
      + exfalso. apply HP. destruct o; exact Logic.I.
      + apply bind_Ret. exists (q1, qa_items a1). split; [|now apply IH].
        apply fuzz_queue_step_iff. rewrite Eo. exists r. split; [exact HD|].
        destruct o as [x| |xs|n]; destruct r; cbn in HA; try contradiction.
        * destruct o as [y|].
          -- destruct HA as (H1 & -> & ->). destruct (Nat.ltb_spec (length (qa_items a)) cap); [lia|auto].
          -- destruct HA as (H1 & ->). destruct (Nat.ltb_spec (length (qa_items a)) cap); [cbn; auto|lia].
        * destruct o as [y|].
          -- destruct HA as (rest & H1 & ->). rewrite H1. cbn. auto.
          -- destruct HA as (H1 & ->). rewrite H1. cbn. auto.
        * destruct HA as (_ & _ & _ & ->). reflexivity.
        * destruct HA as (H1 & H2 & _ & -> & ->). cbn [qa_items]. rewrite repeat_length in H1.
          splits; auto.
          -- rewrite app_length, firstn_length, skipn_length, repeat_length. lia.
          -- rewrite firstn_app, firstn_length, firstn_firstn, Nat.min_id.
             replace (n0 - Nat.min n0 (length (qa_items a))) with 0 by lia. now rewrite app_nil_r.
    - apply bind_Ret. exists (q, qa_items a). split; [|now apply IH].
      apply fuzz_queue_step_iff. rewrite Eo. auto.
  Qed.
End Queues.

(** ** Test producers and test consumers *)

Lemma failing_feed_err : forall T F E (error : E) (xs : list T) (a : tstate T F), t_left a < length xs ->
  m_feed (failing_machine T F error) xs a =
    (t_fail (mk_tstate (t_log a ++ firstn (t_left a) xs) (t_fin a) 0 (t_failed a)), t_left a, Some error).
Proof.
  intros T F E error. induction xs as [|x xs IH]; intros [log fin n b] H; cbn in *; [lia|].
  destruct n as [|n]; cbn.
  - now rewrite app_nil_r.
  - rewrite IH by (cbn; lia). cbn. now rewrite <- app_assoc.
Qed.

Lemma did_error_true : forall (s : tcon), test_consumer_did_error s = true <-> tc_error s = None.
Proof. intros s. unfold test_consumer_did_error. destruct (tc_error s); split; congruence. Qed.

Lemma did_error_false : forall (s : tcon), negb (test_consumer_did_error s) = true <-> tc_error s <> None.
Proof. intros s. unfold test_consumer_did_error. destruct (tc_error s); cbn; split; congruence. Qed.

Lemma emitted_true : forall (s : tpro), test_producer_did_already_emit_last s = true <-> tp_last s = None.
Proof. intros s. unfold test_producer_did_already_emit_last. destruct (tp_last s); split; congruence. Qed.

Lemma emitted_false : forall (s : tpro), negb (test_producer_did_already_emit_last s) = true <-> tp_last s <> None.
Proof. intros s. unfold test_producer_did_already_emit_last. destruct (tp_last s); cbn; split; congruence. Qed.

Lemma is_none_true : forall X (o : option X), is_none o = true <-> o = None.
Proof. intros X [x|]; cbn; split; congruence. Qed.

Lemma expect_Ret : forall X (o : option X) x, expect o = Ret x <-> o = Some x.
Proof. intros X [y|] x; cbn; split; congruence. Qed.

Lemma unwrap_Ret : forall X E (r : res X E) x, unwrap r = Ret x <-> r = Ok x.
Proof. intros X E [y|e] x; cbn; split; congruence. Qed.

Lemma unwrap_err_Ret : forall X E (r : res X E) x, unwrap_err r = Ret x <-> r = Err x.
Proof. intros X E [y|e] x; cbn; split; congruence. Qed.

(** Takes a successful run apart. *)
Ltac ran :=
  repeat match goal with
  | H : bind _ _ = Ret _ |- _ => apply bind_Ret in H as (? & ? & H)
  | H : (let (_, _) := ?x in _) = Ret _ |- _ => destruct x
  | H : (let '(_, _) := ?x in _) = Ret _ |- _ => destruct x
  | x : unit |- _ => destruct x
  | H : assert_eq _ _ = Ret tt |- _ => apply assert_eq_Ret in H
  | H : assert (negb (test_consumer_did_error _)) = Ret tt |- _ => apply assert_Ret in H; apply did_error_false in H
  | H : assert (test_consumer_did_error _) = Ret tt |- _ => apply assert_Ret in H; apply did_error_true in H
  | H : assert (negb (test_producer_did_already_emit_last _)) = Ret tt |- _ => apply assert_Ret in H; apply emitted_false in H
  | H : assert (test_producer_did_already_emit_last _) = Ret tt |- _ => apply assert_Ret in H; apply emitted_true in H
  | H : assert (is_none _) = Ret tt |- _ => apply assert_Ret in H; apply is_none_true in H
  | H : expect _ = Ret _ |- _ => apply expect_Ret in H
  | H : unwrap _ = Ret _ |- _ => apply unwrap_Ret in H
  | H : unwrap_err _ = Ret _ |- _ => apply unwrap_err_Ret in H
  | H : slice_to _ _ = Ret _ |- _ => apply slice_to_Ret in H as [? H]
  | H : slice_from _ _ = Ret _ |- _ => apply slice_from_Ret in H as [? H]
  end.

(** Performs the next step of a run. *)
Ltac run_step :=
  match goal with
  | |- bind _ _ = Ret _ => apply bind_Ret; eexists; split
  | |- assert_eq _ _ = Ret _ => apply assert_eq_Ret
  | |- assert (negb (test_consumer_did_error _)) = Ret _ => apply assert_Ret, did_error_false
  | |- assert (test_consumer_did_error _) = Ret _ => apply assert_Ret, did_error_true
  | |- assert (negb (test_producer_did_already_emit_last _)) = Ret _ => apply assert_Ret, emitted_false
  | |- assert (test_producer_did_already_emit_last _) = Ret _ => apply assert_Ret, emitted_true
  | |- assert (is_none _) = Ret _ => apply assert_Ret, is_none_true
  | |- expect _ = Ret _ => apply expect_Ret
  | |- unwrap _ = Ret _ => apply unwrap_Ret
  | |- unwrap_err _ = Ret _ => apply unwrap_err_Ret
  | |- slice_to _ _ = Ret _ => apply slice_to_Ret; split
  | |- slice_from _ _ = Ret _ => apply slice_from_Ret; split
  end.

Lemma fuzz_consume_full_slice_iff : forall f con items,
  fuzz_consume_full_slice f con items = Ret tt <->
  exists err con' r, tc_error con = Some err /\ f items con = Ret (con', r) /\ full_slice_report items err con' r.
Proof.
  intros f con items. unfold fuzz_consume_full_slice, full_slice_report. split.
  - intros H. ran. destruct r as [[]|[n e]]; ran; subst.
    + do 3 eexists. splits; eauto. cbn. auto.
    + do 3 eexists. splits; eauto. cbn. auto.
  - intros (err & con' & r & H1 & H2 & H3 & H4). run_step; [apply expect_Ret; exact H1|]. rewrite H2. cbn [bind].
    destruct r as [[]|[n e]]; cbn [cale_count cale_reason] in H4.
    + destruct H4 as [H4 H5]. repeat (run_step; eauto).
    + destruct H4 as (H4 & -> & H5 & H6). repeat (run_step; eauto).
Qed.

Lemma fuzz_bulk_consume_full_slice_iff : forall f g con items,
  fuzz_bulk_consume_full_slice f g con items = Ret tt <->
  exists con1 con2 r, f items con = Ret (con1, r) /\ g items con = Ret (con2, r) /\ same_con con1 con2.
Proof.
  intros f g con items. unfold fuzz_bulk_consume_full_slice. split.
  - intros H. ran. subst. match goal with H : assert_same_con _ _ = _ |- _ => apply same_con_iff in H end. eauto 6.
  - intros (c1 & c2 & r & -> & H2 & H3). cbn [bind]. rewrite H2. cbn [bind]. rewrite assert_eq_refl. now apply same_con_iff.
Qed.

Lemma fuzz_overwrite_full_slice_iff : forall f pro len,
  fuzz_overwrite_full_slice f pro len = Ret tt <->
  (len < 8192 ->
   exists items last pro' slice r, test_producer_remaining pro = Ret items /\ tp_last pro = Some last /\
     f (repeat 0 len) pro = Ret (pro', (slice, r)) /\ overwrite_report items last len pro' slice r).
Proof.
  intros f pro len. unfold fuzz_overwrite_full_slice, overwrite_report.
  set (bound := 8192). clearbody bound. destruct (Nat.ltb_spec len bound) as [Hl|Hl].
  - split.
    + intros H _. ran. destruct r as [[]|[n e]]; ran; subst.
      * do 5 eexists. splits; eauto. cbn. auto.
      * do 5 eexists. unfold test_producer_peek_last in *.
        splits; eauto. cbn. splits; eauto. destruct x0; ran; subst; reflexivity.
    + intros H. destruct (H Hl) as (items & last & pro' & slice & r & H1 & H2 & H3 & H4). clear H.
      rewrite H1. cbn [bind]. unfold test_producer_peek_last. rewrite H2. cbn [expect bind]. rewrite H3. cbn [bind].
      destruct r as [[]|[n e]]; cbn [pale_count pale_reason] in H4.
      * destruct H4 as (H4 & H5 & H6). repeat (run_step; eauto).
      * destruct H4 as (H4 & -> & H5 & H6 & H7). run_step; [run_step; eauto|].
        apply bind_Ret. exists tt. split; [destruct e; apply assert_eq_refl|].
        repeat (run_step; eauto).
  - split; [intros _ H; lia|reflexivity].
Qed.

Lemma fuzz_bulk_overwrite_full_slice_iff : forall f g pro len,
  fuzz_bulk_overwrite_full_slice f g pro len = Ret tt <->
  (len < 8192 ->
   exists pro1 pro2 slice1 slice2 r, f (repeat 0 len) pro = Ret (pro1, (slice1, r)) /\
     g (repeat 0 len) pro = Ret (pro2, (slice2, r)) /\ same_pro pro1 pro2).
Proof.
  intros f g pro len. unfold fuzz_bulk_overwrite_full_slice.
  set (bound := 8192). clearbody bound. destruct (Nat.ltb_spec len bound) as [Hl|Hl].
  - split.
    + intros H _. ran. subst. match goal with H : assert_same_pro _ _ = _ |- _ => apply same_pro_iff in H end. do 5 eexists. splits; eauto.
    + intros H. destruct (H Hl) as (p1 & p2 & s1 & s2 & r & H1 & H2 & H3). rewrite H1. cbn [bind]. rewrite H2. cbn [bind].
      rewrite assert_eq_refl. now apply same_pro_iff.
  - split; [intros _ H; lia|reflexivity].
Qed.

Lemma fuzz_bulk_pipe_iff : forall X (H : eq_dec X) (f g : tpro -> tcon -> outcome (tpro * tcon * res X (pipe_error nat nat))) con pro,
  fuzz_bulk_pipe f g con pro = Ret tt <->
  exists pro1 con1 pro2 con2 r, f pro con = Ret (pro1, con1, r) /\ g pro con = Ret (pro2, con2, r) /\
    same_con con1 con2 /\ same_pro pro1 pro2.
Proof.
  intros X HX f g con pro. unfold fuzz_bulk_pipe. split.
  - intros H. ran. subst.
    match goal with H : assert_same_pro _ _ = _ |- _ => apply same_pro_iff in H end.
    match goal with H : assert_same_con _ _ = _ |- _ => apply same_con_iff in H end. do 5 eexists. splits; eauto.
  - intros (p1 & c1 & p2 & c2 & r & H1 & H2 & H3 & H4). rewrite H1. cbn [bind]. rewrite H2. cbn [bind].
    rewrite assert_eq_refl. cbn [bind]. apply bind_Ret. exists tt. split; [now apply same_con_iff|now apply same_pro_iff].
Qed.

Lemma firstn_own_length : forall T n (l log : list T), log = firstn n l -> n <= length l -> length log = n.
Proof. intros T n l log -> H. rewrite firstn_length. lia. Qed.

(** The two error cases that the pipe targets share. *)
Lemma pipe_error_report_iff : forall items last err pro con (e : pipe_error nat nat),
  (let* consumed := test_consumer_consumed con in
   match e with
   | PipeConsumer e =>
      assert (negb (is_none (test_producer_peek_last pro) && is_err last)) ;;
      assert (test_consumer_did_error con) ;;
      assert_eq e err ;;
      let* expected := slice_to (length consumed) items in
      assert_eq consumed expected ;;
      let* remaining := test_producer_remaining pro in
      let* expected :=
        slice_from (length consumed + if test_producer_did_already_emit_last pro then 0 else 1) items in
      assert_eq remaining expected
   | PipeProducer err =>
      assert (test_producer_did_already_emit_last pro) ;;
      assert (negb (test_consumer_did_error con)) ;;
      let* last_err := unwrap_err last in
      assert_eq err last_err ;;
      let* expected := slice_to (length consumed) items in
      assert_eq consumed expected ;;
      let* remaining := test_producer_remaining pro in
      let* expected := slice_from (length consumed) items in
      assert_eq remaining expected
   end) = Ret tt <-> pipe_report items last err pro con (Err e).
Proof.
  intros items last err pro con e. unfold pipe_report. split.
  - intros H. apply bind_Ret in H as (log & Hlog & H). destruct e as [e|e].
    + ran. subst. splits; auto. exists (length log). splits; auto; congruence.
    + apply bind_Ret in H as ([] & H1 & H). apply assert_Ret in H1.
      ran. subst. splits; auto. exists (length log). splits; auto; [congruence|].
      unfold test_producer_peek_last, test_producer_did_already_emit_last in *.
      destruct (tp_last pro) as [l|]; cbn in H1.
      * split; [lia|]. now rewrite Nat.add_1_r in *.
      * rewrite Nat.add_0_r in *. split; [|auto]. destruct last; [eauto|discriminate].
  - destruct e as [e|e].
    + intros (-> & H1 & H2 & n & H3 & H4 & H5). rewrite H4. cbn [bind].
      rewrite firstn_length, Nat.min_l by lia. repeat (run_step; eauto).
    + intros (-> & H1 & n & H3 & H4 & H5). rewrite H4. cbn [bind].
      rewrite firstn_length, Nat.min_l by lia.
      apply bind_Ret. exists tt. split.
      { apply assert_Ret. unfold test_producer_peek_last. destruct (tp_last pro); [reflexivity|].
        destruct H5 as [[f ->] _]. reflexivity. }
      unfold test_producer_did_already_emit_last.
      destruct (tp_last pro); destruct H5 as [H5 H6].
      * repeat (run_step; eauto); [lia|]. now rewrite Nat.add_1_r.
      * repeat (run_step; eauto); [lia|]. now rewrite Nat.add_0_r.
Qed.

(** Moves a pure computation in front. *)
Lemma fuzz_pipe_iff : forall f pro con,
  fuzz_pipe f pro con = Ret tt <->
  exists items last err pro' con' r,
    test_producer_remaining pro = Ret items /\ tp_last pro = Some last /\ tc_error con = Some err /\
    f pro con = Ret (pro', con', r) /\ pipe_report items last err pro' con' r.
Proof.
  intros f pro con. unfold fuzz_pipe. split.
  - intros H. apply bind_Ret in H as (items & H1 & H). apply bind_Ret in H as (last & H2 & H).
    apply bind_Ret in H as (err & H3 & H). apply bind_Ret in H as ([[pro' con'] r] & H4 & H).
    apply expect_Ret in H2, H3. exists items, last, err, pro', con', r. splits; auto.
    destruct r as [[]|e].
    + ran. subst. cbn. splits; eauto.
    + apply pipe_error_report_iff. destruct e as [e|e]; ran; subst.
      * repeat (run_step; eauto).
      * repeat (run_step; eauto).
  - intros (items & last & err & pro' & con' & r & -> & H2 & H3 & H4 & H5). cbn [bind].
    unfold test_producer_peek_last at 1. rewrite H2. unfold test_consumer_peek_error. rewrite H3. cbn [expect bind].
    rewrite H4. cbn [bind]. destruct r as [[]|e].
    + cbn in H5. destruct H5 as (H5 & H6 & fin & -> & H7). repeat (run_step; eauto).
    + apply pipe_error_report_iff in H5. apply bind_Ret in H5 as (log & Hlog & H5).
      destruct e as [e|e]; ran; subst; repeat (run_step; eauto).
Qed.

Lemma fuzz_pipe_at_most_iff : forall f pro con count,
  fuzz_pipe_at_most f pro con count = Ret tt <->
  exists items last err pro' con' r,
    test_producer_remaining pro = Ret items /\ tp_last pro = Some last /\ tc_error con = Some err /\
    f count pro con = Ret (pro', con', r) /\ pipe_at_most_report count items last err pro' con' r.
Proof.
  intros f pro con count. unfold fuzz_pipe_at_most. split.
  - intros H. apply bind_Ret in H as (items & H1 & H). apply bind_Ret in H as (last & H2 & H).
    apply bind_Ret in H as (err & H3 & H). apply bind_Ret in H as ([[pro' con'] r] & H4 & H).
    apply expect_Ret in H2, H3. exists items, last, err, pro', con', r. splits; auto.
    destruct r as [n|e].
    + apply bind_Ret in H as ([] & H5 & H). ran. subst. cbn. splits; auto.
      destruct (n <? count).
      * ran. apply assert_Ret, orb_true_iff in H5. rewrite emitted_true, did_error_true in H5. subst. eauto.
      * apply assert_Ret, andb_true_iff in H5. rewrite emitted_false, did_error_false in H5. exact H5.
    + cbn. split.
      * apply pipe_error_report_iff. destruct e as [e|e]; ran; subst.
        -- repeat (run_step; eauto).
        -- repeat (run_step; eauto).
      * destruct e as [e|e]; ran; subst;
          match goal with H : assert (_ <? _) = _ |- _ => apply assert_Ret, Nat.ltb_lt in H end; eauto.
  - intros (items & last & err & pro' & con' & r & -> & H2 & H3 & H4 & H5). cbn [bind].
    unfold test_producer_peek_last at 1. rewrite H2. unfold test_consumer_peek_error. rewrite H3. cbn [expect bind].
    rewrite H4. cbn [bind]. destruct r as [n|e]; cbn in H5.
    + destruct H5 as (H5 & H6 & H7). apply bind_Ret. exists tt. split.
      { destruct (n <? count); apply assert_Ret.
        - apply orb_true_iff. rewrite emitted_true, did_error_true. tauto.
        - apply andb_true_iff. rewrite emitted_false, did_error_false. tauto. }
      rewrite H6. cbn [bind]. rewrite slice_to_ok by lia. cbn [bind]. rewrite assert_eq_refl. cbn [bind].
      destruct (n <? count); [|reflexivity]. destruct H7 as [_ (fin & -> & H7)]. repeat (run_step; eauto).
    + destruct H5 as [H5 (log & Hlog & Hlen)]. apply pipe_error_report_iff in H5.
      apply bind_Ret in H5 as (log' & Hlog' & H5). rewrite Hlog in Hlog'. injection Hlog' as <-.
      destruct e as [e|e]; ran; subst; repeat (run_step; eauto); now apply assert_Ret, Nat.ltb_lt.
Qed.

(** ** The slice of a test producer never changes *)

Lemma from_slice_consider_keeps : forall T amount (i i' : from_slice T) r,
  from_slice_consider amount i = Ret (i', r) -> fs_slice i' = fs_slice i.
Proof. intros T amount i i' r [= <- _]. reflexivity. Qed.

Lemma from_slice_produce_keeps : forall T (i i' : from_slice T) r,
  from_slice_produce i = Ret (i', r) -> fs_slice i' = fs_slice i.
Proof.
  intros T i i' r. unfold from_slice_produce. destruct (_ =? _); [intros [= <- _]; reflexivity|].
  intros H. ran. injection H as <- _. reflexivity.
Qed.

Lemma from_slice_expose_keeps : forall T (i i' : from_slice T) r,
  from_slice_expose i = Ret (i', r) -> fs_slice i' = fs_slice i.
Proof.
  intros T i i' r. unfold from_slice_expose. intros H. ran. destruct x; injection H as <- _; reflexivity.
Qed.

Section Keeps.
  Context {T F E : Type}.
  Notation state := (test_producer_state T F E).

  Lemma tp_maybe_yield_keeps : forall (s s' : state), tp_maybe_yield s = Ret s' -> tp_inner s' = tp_inner s.
  Proof. intros s s' H. unfold tp_maybe_yield in H. ran. injection H as <-. reflexivity. Qed.

  Lemma tp_take_last_keeps : forall (s s' : state) l, tp_take_last s = Ret (s', l) -> tp_inner s' = tp_inner s.
  Proof. intros s s' l H. unfold tp_take_last in H. ran. injection H as <- _. reflexivity. Qed.

  Lemma tp_check_error_keeps : forall (s s' : state) e, tp_check_error s = Ret (s', e) -> tp_inner s' = tp_inner s.
  Proof.
    intros s s' e H. unfold tp_check_error in H. apply bind_Ret in H as (rest & _ & H). destruct rest.
    - ran. destruct x; injection H as <- _; reflexivity.
    - injection H as <- _. reflexivity.
  Qed.

  Lemma test_producer_produce_keeps : forall (s s' : state) r,
    test_producer_produce s = Ret (s', r) -> fs_slice (tp_inner s') = fs_slice (tp_inner s).
  Proof.
    intros s s' r H. unfold test_producer_produce in H. apply bind_Ret in H as (s1 & H1 & H).
    apply tp_maybe_yield_keeps in H1. apply bind_Ret in H as (rest & _ & H). destruct rest.
    - apply bind_Ret in H as ([s2 l] & H2 & H). apply tp_take_last_keeps in H2.
      destruct l; injection H as <- _; now rewrite H2, H1.
    - apply bind_Ret in H as ([i r'] & H2 & H). apply from_slice_produce_keeps in H2.
      ran. injection H as <- _. cbn. now rewrite H2, H1.
  Qed.

  Lemma test_producer_expose_keeps : forall (s s' : state) r,
    test_producer_expose s = Ret (s', r) -> fs_slice (tp_inner s') = fs_slice (tp_inner s).
  Proof.
    intros s s' r H. unfold test_producer_expose in H. apply bind_Ret in H as (s1 & H1 & H).
    apply tp_maybe_yield_keeps in H1. apply bind_Ret in H as (rest & _ & H). destruct rest.
    - apply bind_Ret in H as ([s2 l] & H2 & H). apply tp_take_last_keeps in H2.
      destruct l; injection H as <- _; now rewrite H2, H1.
    - destruct (tp_sizes s1) as [sz|].
      + apply bind_Ret in H as ([ml sz'] & _ & H).
        apply bind_Ret in H as ([i r'] & H2 & H). apply from_slice_expose_keeps in H2.
        ran. injection H as <- _. cbn. now rewrite H2, H1.
      + apply bind_Ret in H as ([i r'] & H2 & H). apply from_slice_expose_keeps in H2.
        ran. injection H as <- _. cbn. now rewrite H2, H1.
  Qed.

  Lemma test_producer_consider_keeps : forall n (s s' : state) r,
    test_producer_consider n s = Ret (s', r) -> fs_slice (tp_inner s') = fs_slice (tp_inner s).
  Proof.
    intros n s s' r H. unfold test_producer_consider in H. apply bind_Ret in H as (s1 & H1 & H).
    apply tp_maybe_yield_keeps in H1. apply bind_Ret in H as ([s2 e] & H2 & H). apply tp_check_error_keeps in H2.
    destruct e.
    - injection H as <- _. now rewrite H2, H1.
    - apply bind_Ret in H as ([i r'] & H3 & H). apply from_slice_consider_keeps in H3.
      injection H as <- _. cbn. now rewrite H3, H2, H1.
  Qed.

  Definition tpi_rel (items : list T) (s : state) (xs : list T) (l : res F E) (k : nat) : Prop :=
    tp_rel s xs l k /\ fs_slice (tp_inner s) = items.
  Definition tpi_end (items : list T) (s : state) : Prop := tp_end s /\ fs_slice (tp_inner s) = items.

  Lemma test_producer_keeps : forall items, lawful_producer (@test_producer T F E) (tpi_rel items) (tpi_end items).
  Proof.
    intros items. apply default_lawful_producer; [|reflexivity].
    pose proof (lp_core (@test_producer_lawful T F E)) as L. constructor.
    - intros s xs l k [H _]. exact (lp_wf L H).
    - intros s xs l k [H1 H2]. split; [exact (lp_forget L H1)|exact H2].
    - intros s x xs l k [H1 H2]. destruct (lp_produce L H1) as (s' & E1 & H3).
      exists s'. splits; auto. split; [auto|]. rewrite <- H2. exact (test_producer_produce_keeps _ E1).
    - intros s l k [H1 H2]. destruct (lp_produce_last L H1) as (s' & E1 & H3).
      exists s'. splits; auto. split; [auto|]. rewrite <- H2. exact (test_producer_produce_keeps _ E1).
    - intros s xs l k [H1 H2] Hne. destruct (lp_expose L H1 Hne) as (s' & ys & rest & E1 & H3 & H4 & H5).
      exists s', ys, rest. splits; auto. split; [auto|]. rewrite <- H2. exact (test_producer_expose_keeps _ E1).
    - intros s l k [H1 H2]. destruct (lp_expose_last L H1) as (s' & E1 & H3).
      exists s'. splits; auto. split; [auto|]. rewrite <- H2. exact (test_producer_expose_keeps _ E1).
    - intros s xs l k n [H1 H2] Hk Hn. destruct (lp_consider L n H1 Hk Hn) as (s' & E1 & H3).
      exists s'. splits; auto. split; [auto|]. rewrite <- H2. exact (test_producer_consider_keeps _ _ E1).
  Qed.

  Lemma tpi_rel_build : forall items last sizes pattern, Forall (fun n => 1 <= n) sizes ->
    tpi_rel items (test_producer_build items last (Some sizes) (Some pattern)) items last 0.
  Proof. intros items last sizes pattern H. split; [now apply tp_rel_build|reflexivity]. Qed.

  Lemma tpi_read : forall items (s : state) a, p_rel (tpi_rel items) (tpi_end items) s a ->
    fs_slice (tp_inner s) = items /\
    match a with
    | PActive xs l _ => test_producer_remaining s = Ret xs /\ tp_last s = Some l
    | PEnded => test_producer_remaining s = Ret [] /\ tp_last s = None
    end.
  Proof.
    intros items s [xs l k|]; cbn; intros [H1 H2]; (split; [exact H2|]); unfold test_producer_remaining.
    - destruct H1 as (H1 & H3 & _). split; [exact (fs_not_yet H1)|exact H3].
    - destruct H1 as (H1 & H3). split; [|exact H3]. unfold from_slice_not_yet_produced. rewrite H1.
      rewrite slice_from_ok by lia. now rewrite skipn_all.
  Qed.
End Keeps.

(** What is left of an [arbitrary] consumer. *)
Lemma tc_read : forall error (s : tcon) a, c_rel (tc_rel error) (tc_end error) s a ->
  match a with
  | CActive a _ _ | CEnded a =>
      test_consumer_consumed s = Ret (t_log a) /\ tc_fin s = t_fin a /\
      tc_error s = (if t_failed a then None else Some error)
  end.
Proof.
  intros error s a H. pose proof (tc_accessors error s a H) as HA.
  destruct a; destruct HA as (A1 & A2 & _ & _ & A5); auto.
Qed.

Section Passing.
  Context (error until : nat) (csizes : list nat) (cpattern : list bool) (Hcs : Forall (fun n => 1 <= n) csizes).
  Let con := arbitrary_con error until csizes cpattern.
  Let C := @test_consumer nat nat nat 0.
  Let M := @failing_machine nat nat nat error.
  Let a0 := @mk_tstate nat nat [] None until false.

  Lemma con_start : tc_rel error con a0 0 [].
  Proof. apply tc_rel_build; exact Hcs. Qed.

  Lemma feed_cases : forall xs,
    (length xs <= until /\ m_feed M xs a0 = (mk_tstate xs None (until - length xs) false, length xs, None)) \/
    (until < length xs /\ m_feed M xs a0 = (mk_tstate (firstn until xs) None 0 true, until, Some error)).
  Proof.
    intros xs. destruct (le_lt_dec (length xs) until) as [H|H]; [left|right]; (split; [exact H|]).
    - exact (failing_feed error xs a0 H).
    - exact (failing_feed_err error xs a0 H).
  Qed.

  Lemma consume_full_slice_passes : forall items,
    fuzz_consume_full_slice (consume_full_slice C) con items = Ret tt.
  Proof.
    intros items. apply fuzz_consume_full_slice_iff.
    pose proof (@consume_full_slice_lawful _ _ _ _ _ _ _ _ _ (test_consumer_lawful 0 error) items con a0 0 [] con_start) as H.
    unfold full_slice_effect in H. fold M in H.
    destruct (feed_cases items) as [[Hl HF]|[Hl HF]]; rewrite HF in H; destruct H as (s' & E1 & HR);
      apply tc_read in HR; cbn in HR; destruct HR as (R1 & R2 & R3).
    - exists error, s', (Ok tt). split; [reflexivity|]. split; [exact E1|]. split; [exact R2|].
      rewrite R3. split; [discriminate|exact R1].
    - exists error, s', (Err (mk_cale until error)). split; [reflexivity|]. split; [exact E1|]. split; [exact R2|].
      cbn. splits; auto. lia.
  Qed.

  Lemma bulk_consume_full_slice_passes : forall fuel items, length items < fuel ->
    fuzz_bulk_consume_full_slice (bulk_consume_full_slice fuel C) (consume_full_slice C) con items = Ret tt.
  Proof.
    intros fuel items Hf. apply fuzz_bulk_consume_full_slice_iff.
    pose proof (@consume_full_slice_lawful _ _ _ _ _ _ _ _ _ (test_consumer_lawful 0 error) items con a0 0 [] con_start) as H1.
    pose proof (@bulk_consume_full_slice_lawful _ _ _ _ _ _ _ _ _ (test_consumer_lawful 0 error) fuel items con a0 0 [] con_start Hf) as H2.
    unfold full_slice_effect in H1. fold M in H1, H2. destruct (m_feed M items a0) as [[a' n] [e|]].
    - destruct H1 as (s1 & E1 & R1). destruct H2 as (s2 & m & E2 & R2 & _ & Hm).
      rewrite (Hm (@test_consumer_clean _ _ _ 0 error)) in E2.
      exists s2, s1, (Err (mk_cale n e)). splits; auto.
      apply tc_read in R1 as (A1 & A2 & A3). apply (@tc_read error _ (CEnded a')) in R2 as (B1 & B2 & B3).
      exists (t_log a'). splits; congruence.
    - destruct H1 as (s1 & E1 & R1). destruct H2 as (s2 & E2 & R2). exists s2, s1, (Ok tt). splits; auto.
      apply tc_read in R1 as (A1 & A2 & A3). apply (@tc_read error _ (CActive a' 0 [])) in R2 as (B1 & B2 & B3).
      exists (t_log a'). splits; congruence.
  Qed.

  Section Producer.
    Context (items : list nat) (last : res nat nat) (psizes : list nat) (ppattern : list bool)
      (Hps : Forall (fun n => 1 <= n) psizes).
    Let pro := arbitrary_pro items last psizes ppattern.
    Let P := @test_producer nat nat nat.

    Lemma pro_start : tpi_rel items pro items last 0.
    Proof. exact (tpi_rel_build items last ppattern Hps). Qed.

    Lemma overwrite_full_slice_passes : forall len,
      fuzz_overwrite_full_slice (overwrite_full_slice P) pro len = Ret tt.
    Proof.
      intros len. apply fuzz_overwrite_full_slice_iff. intros _.
      pose proof (@overwrite_full_slice_lawful _ _ _ _ _ _ _ (test_producer_keeps items) (repeat 0 len) pro items last 0 pro_start) as H.
      unfold overwrite_effect in H. rewrite repeat_length in H.
      destruct (Nat.leb_spec len (length items)) as [Hl|Hl]; destruct H as (s' & E1 & HR); apply tpi_read in HR; cbn in HR;
        destruct HR as (R1 & R2 & R3).
      - exists items, last, s', (firstn len items), (Ok tt). split; [reflexivity|]. split; [reflexivity|]. split; [exact E1|].
        cbn. splits; auto. rewrite R3. discriminate.
      - exists items, last, s', (items ++ skipn (length items) (repeat 0 len)), (Err (mk_pale (length items) (match last with Ok f => inl f | Err e => inr e end))).
        split; [reflexivity|]. split; [reflexivity|]. split; [exact E1|].
        cbn. splits; auto.
        + now destruct last.
        + rewrite app_length. lia.
        + rewrite firstn_app, Nat.sub_diag, firstn_all. now rewrite app_nil_r.
    Qed.

    Lemma bulk_overwrite_full_slice_passes : forall fuel len, len < fuel ->
      fuzz_bulk_overwrite_full_slice (bulk_overwrite_full_slice fuel P) (overwrite_full_slice P) pro len = Ret tt.
    Proof.
      intros fuel len Hf. apply fuzz_bulk_overwrite_full_slice_iff. intros _.
      pose proof (@overwrite_full_slice_lawful _ _ _ _ _ _ _ (test_producer_keeps items) (repeat 0 len) pro items last 0 pro_start) as H1.
      pose proof (@bulk_overwrite_full_slice_lawful _ _ _ _ _ _ _ (test_producer_keeps items) fuel (repeat 0 len) pro items last 0 pro_start) as H2.
      rewrite repeat_length in H2. specialize (H2 Hf).
      destruct (overwrite_effect items last (repeat 0 len)) as [[p' buf'] r].
      destruct H1 as (s1 & E1 & R1). destruct H2 as (s2 & E2 & R2). exists s2, s1, buf', buf', r. splits; auto.
      apply tpi_read in R1 as (A1 & A2). apply tpi_read in R2 as (B1 & B2).
      split; [congruence|]. destruct p'; destruct A2, B2; congruence.
    Qed.

    Lemma pipe_passes : forall fuel, length items < fuel -> fuzz_pipe (pipe fuel P C) pro con = Ret tt.
    Proof.
      intros fuel Hf. apply fuzz_pipe_iff. exists items, last, error.
      pose proof (@pipe_lawful _ _ _ _ _ _ _ _ _ _ _ _ _ _ (test_producer_keeps items) (test_consumer_lawful 0 error) items fuel pro last 0 con a0 0 []
        pro_start con_start Hf) as H.
      fold M in H. unfold pipe_effect in H.
      destruct (feed_cases items) as [[Hl HF]|[Hl HF]]; rewrite HF in H.
      - destruct last as [f|e] eqn:El.
        + destruct (until - length items) as [|left] eqn:Eleft; cbn in H; destruct H as (sp' & sc' & E1 & R1 & R2);
            apply (@tpi_read _ _ _ items sp' PEnded) in R1; apply (@tc_read error sc' (CEnded _)) in R2; cbn in R1, R2;
            destruct R1 as (A1 & A2 & A3); destruct R2 as (B1 & B2 & B3).
          * exists sp', sc', (Err (PipeConsumer error)). repeat (split; [reflexivity|]). split; [exact E1|]. cbn.
            splits; auto. exists (length items). rewrite A3, firstn_all, skipn_all. splits; eauto.
          * exists sp', sc', (Ok tt). repeat (split; [reflexivity|]). split; [exact E1|]. cbn. splits; eauto.
        + destruct H as (sp' & sc' & E1 & R1 & R2); apply tpi_read in R1; apply tc_read in R2; cbn in R1, R2;
            destruct R1 as (A1 & A2 & A3); destruct R2 as (B1 & B2 & B3).
          exists sp', sc', (Err (PipeProducer e)). repeat (split; [reflexivity|]). split; [exact E1|]. cbn.
          splits; auto; [rewrite B3; discriminate|]. exists (length items). rewrite firstn_all, skipn_all. auto.
      - destruct H as (sp' & sc' & E1 & R1 & R2); apply tpi_read in R1; apply tc_read in R2; cbn -[skipn] in R1, R2;
          destruct R1 as (A1 & A2 & A3); destruct R2 as (B1 & B2 & B3).
        exists sp', sc', (Err (PipeConsumer error)). repeat (split; [reflexivity|]). split; [exact E1|]. cbn -[skipn].
        splits; auto. exists until. rewrite A3. splits; auto; lia.
    Qed.

    Lemma pipe_at_most_passes : forall count,
      fuzz_pipe_at_most (fun count => pipe_at_most P C count) pro con count = Ret tt.
    Proof.
      intros count. apply fuzz_pipe_at_most_iff. exists items, last, error.
      pose proof (@pipe_at_most_lawful _ _ _ _ _ _ _ _ _ _ _ _ _ _ (test_producer_keeps items) (test_consumer_lawful 0 error) count pro items last 0 con a0 0 []
        pro_start con_start) as H.
      fold M in H. unfold pipe_at_most_effect in H.
      destruct (Nat.ltb_spec (length items) count) as [Hc|Hc].
      - unfold pipe_effect in H. destruct (feed_cases items) as [[Hl HF]|[Hl HF]]; rewrite HF in H.
        + destruct last as [f|e] eqn:El.
          * destruct (until - length items) as [|left] eqn:Eleft; cbn in H; destruct H as (sp' & sc' & E1 & R1 & R2);
              apply (@tpi_read _ _ _ items sp' PEnded) in R1; apply (@tc_read error sc' (CEnded _)) in R2; cbn in R1, R2;
              destruct R1 as (A1 & A2 & A3); destruct R2 as (B1 & B2 & B3).
            -- exists sp', sc', (Err (PipeConsumer error)). repeat (split; [reflexivity|]). split; [exact E1|]. cbn.
               split; [|exists items; auto].
               splits; auto. exists (length items). rewrite A3, firstn_all, skipn_all. splits; eauto.
            -- exists sp', sc', (Ok (length items)). repeat (split; [reflexivity|]). split; [exact E1|]. cbn.
               rewrite firstn_all. destruct (Nat.ltb_spec (length items) count); [|lia]. splits; eauto.
          * destruct H as (sp' & sc' & E1 & R1 & R2); apply tpi_read in R1; apply tc_read in R2; cbn in R1, R2;
              destruct R1 as (A1 & A2 & A3); destruct R2 as (B1 & B2 & B3).
            exists sp', sc', (Err (PipeProducer e)). repeat (split; [reflexivity|]). split; [exact E1|]. cbn.
            split; [|exists items; auto].
            splits; auto; [rewrite B3; discriminate|]. exists (length items). rewrite firstn_all, skipn_all. auto.
        + destruct H as (sp' & sc' & E1 & R1 & R2); apply tpi_read in R1; apply tc_read in R2; cbn -[skipn] in R1, R2;
            destruct R1 as (A1 & A2 & A3); destruct R2 as (B1 & B2 & B3).
          exists sp', sc', (Err (PipeConsumer error)). repeat (split; [reflexivity|]). split; [exact E1|]. cbn -[skipn].
          split; [|eexists; split; [exact B1|rewrite firstn_length; lia]].
          splits; auto. exists until. rewrite A3. splits; auto; lia.
      - destruct (feed_cases (firstn count items)) as [[Hl HF]|[Hl HF]]; rewrite HF in H; rewrite firstn_length, Nat.min_l in Hl by lia.
        + destruct H as (sp' & sc' & E1 & R1 & R2); apply tpi_read in R1; apply tc_read in R2; cbn in R1, R2;
            destruct R1 as (A1 & A2 & A3); destruct R2 as (B1 & B2 & B3).
          exists sp', sc', (Ok count). repeat (split; [reflexivity|]). split; [exact E1|]. cbn.
          destruct (Nat.ltb_spec count count); [lia|]. rewrite A3, B3. splits; auto; discriminate.
        + destruct H as (sp' & sc' & E1 & R1 & R2); apply tpi_read in R1; apply tc_read in R2; cbn -[skipn] in R1, R2;
            destruct R1 as (A1 & A2 & A3); destruct R2 as (B1 & B2 & B3).
          rewrite firstn_firstn, Nat.min_l in B1 by lia.
          exists sp', sc', (Err (PipeConsumer error)). repeat (split; [reflexivity|]). split; [exact E1|]. cbn -[skipn].
          split; [|eexists; split; [exact B1|rewrite firstn_length; lia]].
          splits; auto. exists until. rewrite A3. splits; auto; lia.
    Qed.

    Lemma lags_same_last : forall X xs l (r : res X (pipe_error nat nat)) p' p'' sp1 sp2,
      lags xs l r p' p'' -> p_rel (tpi_rel items) (tpi_end items) sp1 p' -> p_rel (tpi_rel items) (tpi_end items) sp2 p'' ->
      same_pro sp2 sp1.
    Proof.
      intros X xs l r p' p'' sp1 sp2 HL R1 R2. apply tpi_read in R1 as [A1 A2]. apply tpi_read in R2 as [B1 B2].
      split; [congruence|]. destruct HL as [| x p|]; [|destruct p|]; destruct A2, B2; congruence.
    Qed.

    Lemma tc_same : forall sc1 sc2 c', c_rel (tc_rel error) (tc_end error) sc1 c' -> c_rel (tc_rel error) (tc_end error) sc2 c' ->
      same_con sc2 sc1.
    Proof.
      intros sc1 sc2 c' R1 R2. apply tc_read in R1. apply tc_read in R2.
      destruct c' as [a k w|a]; destruct R1 as (A1 & A2 & A3), R2 as (B1 & B2 & B3); exists (t_log a); splits; congruence.
    Qed.

    Lemma bulk_pipe_passes : forall fuel, length items < fuel ->
      fuzz_bulk_pipe (bulk_pipe fuel P C) (pipe fuel P C) con pro = Ret tt.
    Proof.
      intros fuel Hf. apply fuzz_bulk_pipe_iff.
      pose proof (@pipe_lawful _ _ _ _ _ _ _ _ _ _ _ _ _ _ (test_producer_keeps items) (test_consumer_lawful 0 error) items fuel pro last 0 con a0 0 []
        pro_start con_start Hf) as H1.
      pose proof (@bulk_pipe_lawful _ _ _ _ _ _ _ _ _ _ _ _ _ _ (test_producer_keeps items) (test_consumer_lawful 0 error) fuel items pro last 0 con a0 0 []
        pro_start con_start Hf) as H2.
      fold M in H1, H2. destruct (pipe_effect M items last a0) as [[p' c'] r].
      destruct H1 as (sp1 & sc1 & E1 & R1 & R2). destruct H2 as (sp2 & sc2 & p'' & E2 & R3 & HL & R4).
      exists sp2, sc2, sp1, sc1, r. splits; auto; [exact (tc_same _ _ _ R2 R4)|eapply lags_same_last; eauto].
    Qed.

    Lemma bulk_pipe_at_most_passes : forall fuel count, count < fuel ->
      fuzz_bulk_pipe (bulk_pipe_at_most fuel P C count) (pipe_at_most P C count) con pro = Ret tt.
    Proof.
      intros fuel count Hf. apply fuzz_bulk_pipe_iff.
      pose proof (@pipe_at_most_lawful _ _ _ _ _ _ _ _ _ _ _ _ _ _ (test_producer_keeps items) (test_consumer_lawful 0 error) count pro items last 0 con a0 0 []
        pro_start con_start) as H1.
      pose proof (@bulk_pipe_at_most_lawful _ _ _ _ _ _ _ _ _ _ _ _ _ _ (test_producer_keeps items) (test_consumer_lawful 0 error) fuel count items pro last 0 con a0 0 []
        pro_start con_start Hf) as H2.
      fold M in H1, H2. destruct (pipe_at_most_effect M count items last a0) as [[p' c'] r].
      destruct H1 as (sp1 & sc1 & E1 & R1 & R2). destruct H2 as (sp2 & sc2 & p'' & E2 & R3 & HL & R4).
      exists sp2, sc2, sp1, sc1, r. splits; auto; [exact (tc_same _ _ _ R2 R4)|eapply lags_same_last; eauto].
    Qed.
  End Producer.
End Passing.

(** ** The bulk methods against the single-item methods *)

Lemma index_skipn : forall T i (l : list T) x rest, skipn i l = x :: rest -> index i l = Ret x.
Proof.
  intros T. induction i as [|i IH]; intros [|y l] x rest H; cbn in *; try discriminate.
  - now injection H as -> _.
  - apply IH in H. unfold index in *. cbn. exact H.
Qed.

Lemma skipn_cons_next : forall T i (l : list T) x rest, skipn i l = x :: rest -> skipn (i + 1) l = rest.
Proof. intros T i l x rest H. rewrite <- skipn_skipn. now rewrite H. Qed.

Section BulkConsumePasses.
  Context (error : nat).
  Let C := @test_consumer nat nat nat 0.
  Let M := @failing_machine nat nat nat error.
  Let L := test_consumer_lawful (T := nat) (F := nat) 0 error.

  Lemma repeat_consume_runs : forall n items o control a k w a', tc_rel error control a k w -> o + n <= length items ->
    m_feed M (firstn n (skipn o items)) a = (a', n, None) ->
    exists control', repeat_consume C n items o control = Ret (control', o + n) /\ tc_rel error control' a' 0 [].
  Proof.
    induction n as [|n IH]; intros items o control a k w a' HR Ho HF; cbn [repeat_consume].
    - injection HF as <-. exists control. rewrite Nat.add_0_r. split; [reflexivity|exact (lc_forget L HR)].
    - destruct (skipn o items) as [|x rest] eqn:Es; [discriminate|]. rewrite (index_skipn _ _ Es). cbn [bind].
      cbn [firstn m_feed] in HF. destruct (lc_consume L x HR) as (s' & E1 & HR'). fold M in E1, HR'. fold C in E1.
      rewrite E1. destruct (m_step M x a) as [a1 [[]|e]]; [|discriminate].
      cbn [bind snd is_ok assert]. destruct (m_feed M (firstn n rest) a1) as [[a2 m] oe] eqn:EF. injection HF as <- <- ->.
      rewrite <- (skipn_cons_next _ _ Es) in EF.
      destruct (IH items (o + 1) s' a1 0 [] a2 HR' ltac:(lia) EF) as (control' & E2 & HR2).
      exists control'. rewrite E2. split; [|exact HR2]. do 2 f_equal. lia.
  Qed.

  Lemma tc_same_active : forall s1 s2 a, tc_rel error s1 a 0 [] -> tc_rel error s2 a 0 [] -> assert_same_con s1 s2 = Ret tt.
  Proof. intros s1 s2 a H1 H2. apply same_con_iff. exact (tc_same _ _ _ (CActive a 0 []) H2 H1). Qed.

  Lemma tc_same_ended : forall s1 s2 a, tc_end error s1 a -> tc_end error s2 a -> assert_same_con s1 s2 = Ret tt.
  Proof. intros s1 s2 a H1 H2. apply same_con_iff. exact (tc_same _ _ _ (CEnded a) H2 H1). Qed.

  Lemma bulk_consume_loop_passes : forall slice_lengths items o con control a,
    o <= length items -> tc_rel error con a 0 [] -> tc_rel error control a 0 [] ->
    fuzz_bulk_consume_loop C items slice_lengths o con control = Ret tt.
  Proof.
    induction slice_lengths as [|n ns IH]; intros items o con control a Ho H1 H2; cbn [fuzz_bulk_consume_loop];
      [exact (tc_same_active H1 H2)|].
    rewrite slice_from_ok by exact Ho. cbn [bind].
    destruct (skipn o items) as [|x rest] eqn:Es; [exact (tc_same_active H1 H2)|].
    rewrite csub_ok by exact Ho. cbn [bind].
    assert (Hlen : length items - o = S (length rest)) by (rewrite <- skipn_length, Es; reflexivity).
    destruct (Nat.eqb_spec (Nat.min n (length items - o)) 0); [exact (tc_same_active H1 H2)|].
    rewrite slice_ok by lia. replace (o + _ - o) with (Nat.min n (length items - o)) by lia. cbn [bind].
    set (m := Nat.min n (length items - o)) in *.
    assert (Hb : firstn m (skipn o items) <> []) by (rewrite Es; destruct m; [lia|discriminate]).
    assert (Hbl : length (firstn m (skipn o items)) = m) by (rewrite firstn_length, skipn_length; lia).
    destruct (lc_bulk L _ H1 Hb) as [(s' & q & a' & E1 & Hq & HF & HR)|(s' & q & e & a' & E1 & HF & HR)]; fold C in E1; fold M in HF; rewrite E1; cbn [bind].
    - rewrite firstn_firstn, Nat.min_l in HF by lia.
      destruct (@repeat_consume_runs q items o control a 0 [] a' H2 ltac:(lia) HF) as (control' & E2 & HR').
      rewrite E2. cbn [bind]. rewrite (tc_same_active HR HR'). apply (IH _ _ _ _ a'); auto. lia.
    - rewrite (index_skipn _ _ Es). cbn [bind].
      destruct (lc_consume L x H2) as (s2 & E2 & HR2). fold M in E2, HR2. fold C in E2. rewrite E2.
      assert (Hc : snd (m_step M x a) = Err e).
      { rewrite Es in E1. destruct m; [lia|]. cbn [firstn] in E1. exact (@test_consumer_clean nat nat nat 0 error _ _ _ _ _ _ _ _ H1 E1). }
      rewrite Es in HF. destruct m; [lia|]. cbn [firstn m_feed] in HF. rewrite Hc.
      destruct (m_step M x a) as [a1 [|e']]; [discriminate|]. cbn in Hc. injection Hc as ->. injection HF as -> _.
      cbn [bind unwrap_err snd]. rewrite (proj2 (assert_eq_Ret _ _ _) eq_refl). exact (tc_same_ended HR HR2).
  Qed.

  Lemma bulk_consume_passes : forall limit csizes cpattern items slice_lengths, Forall (fun n => 1 <= n) csizes ->
    fuzz_bulk_consume C (arbitrary_con error limit csizes cpattern) items slice_lengths = Ret tt.
  Proof.
    intros limit csizes cpattern items slice_lengths H. unfold fuzz_bulk_consume.
    eapply bulk_consume_loop_passes; [lia| |]; apply con_start; exact H.
  Qed.
End BulkConsumePasses.

(** The target never looks at what [bulk_produce] reports at the end of the sequence. *)
Section BulkProducePasses.
  Context (items : list nat) (last : res nat nat).
  Context (P : bulk_producer tpro nat nat nat).
  Context (HP : p_produce P = p_produce (@test_producer nat nat nat)).
  Context (HB : forall buf s x xs k, tpi_rel items s (x :: xs) last k ->
    p_bulk_produce P buf s = p_bulk_produce (@test_producer nat nat nat) buf s).
  Let L := @test_producer_keeps nat nat nat items.

  Lemma repeat_produce_runs : forall n acc o control xs k, tpi_rel items control xs last k -> n <= length xs ->
    exists control', repeat_produce P n acc o control = Ret (control', (acc ++ firstn n xs, o + n)) /\
      tpi_rel items control' (skipn n xs) last 0.
  Proof.
    induction n as [|n IH]; intros acc o control xs k HR Hn; cbn [repeat_produce].
    - exists control. rewrite Nat.add_0_r. cbn. rewrite app_nil_r. split; [reflexivity|exact (lp_forget L HR)].
    - destruct xs as [|x xs]; [cbn in Hn; lia|]. rewrite HP. destruct (lp_produce L HR) as (s' & E1 & HR').
      rewrite E1. cbn [bind unwrap either_left]. cbn in Hn.
      destruct (IH (acc ++ [x]) (o + 1) s' xs _ HR' ltac:(lia)) as (control' & E2 & HR2).
      exists control'. rewrite E2. split; [|exact HR2]. cbn. rewrite <- app_assoc. do 3 f_equal. lia.
  Qed.

  Lemma tpi_same : forall s1 s2 xs, tpi_rel items s1 xs last 0 -> tpi_rel items s2 xs last 0 -> same_pro s1 s2.
  Proof.
    intros s1 s2 xs H1 H2. apply (@tpi_read _ _ _ items _ (PActive xs last 0)) in H1. apply (@tpi_read _ _ _ items _ (PActive xs last 0)) in H2.
    destruct H1 as (A1 & A2 & A3), H2 as (B1 & B2 & B3). split; congruence.
  Qed.

  Lemma check_produced_passes : forall produced ctl o pro control xs, o <= length produced -> firstn o produced = ctl ->
    tpi_rel items pro xs last 0 -> tpi_rel items control xs last 0 -> check_produced produced ctl o pro control = Ret tt.
  Proof.
    intros produced ctl o pro control xs Ho Hc H1 H2. unfold check_produced. rewrite slice_to_ok by exact Ho. cbn [bind].
    rewrite (proj2 (assert_eq_Ret _ _ _) Hc). cbn [bind]. apply same_pro_iff. eapply tpi_same; eauto.
  Qed.

  Lemma bulk_produce_loop_passes : forall slice_lengths produced o pro control,
    o <= length items -> length produced = length items -> firstn o produced = firstn o items ->
    tpi_rel items pro (skipn o items) last 0 -> tpi_rel items control (skipn o items) last 0 ->
    fuzz_bulk_produce_loop P slice_lengths (length items) produced (firstn o items) o pro control = Ret tt.
  Proof.
    induction slice_lengths as [|n ns IH]; intros produced o pro control Ho Hp Heq H1 H2; cbn [fuzz_bulk_produce_loop];
      [eapply check_produced_passes; eauto; lia|].
    rewrite csub_ok by exact Ho. cbn [bind].
    destruct (Nat.eqb_spec (Nat.min n (length items - o)) 0) as [|Hne]; [eapply check_produced_passes; eauto; lia|].
    rewrite slice_from_ok by lia. cbn [bind].
    assert (Hb : skipn o produced <> []) by (intros Hb; apply (f_equal (@length nat)) in Hb; rewrite skipn_length in Hb; cbn in Hb; lia).
    destruct (skipn o items) as [|x xs] eqn:Es; [apply (f_equal (@length nat)) in Es; rewrite skipn_length in Es; cbn in Es; lia|].
    rewrite (HB (skipn o produced) H1).
    destruct (lp_bulk L _ H1 Hb) as (s' & q & E1 & Hq & Hq' & HR). rewrite E1. cbn [bind].
    assert (Hl : length (x :: xs) = length items - o) by (rewrite <- Es; apply skipn_length).
    destruct (@repeat_produce_runs q (firstn o items) o control (x :: xs) 0 H2 Hq') as (control' & E2 & HR2). rewrite E2. cbn [bind].
    rewrite <- Es in *.
    replace (firstn o items ++ firstn q (skipn o items)) with (firstn (o + q) items).
    2:{ rewrite <- (firstn_skipn o items) at 1. rewrite firstn_app, firstn_firstn, firstn_length, Nat.min_r by lia.
        f_equal. f_equal. lia. }
    rewrite skipn_skipn in HR, HR2.
    set (produced' := firstn o produced ++ firstn q (skipn o items) ++ skipn q (skipn o produced)).
    assert (Hp' : length produced' = length items).
    { unfold produced'. rewrite !app_length, !firstn_length, !skipn_length. lia. }
    assert (Heq' : firstn (o + q) produced' = firstn (o + q) items).
    { unfold produced'. rewrite Heq, app_assoc.
      rewrite firstn_app. rewrite app_length, !firstn_length, skipn_length.
      replace (o + q - _) with 0 by lia. rewrite firstn_O, app_nil_r.
      rewrite firstn_all2 by (rewrite app_length, !firstn_length, skipn_length; lia).
      rewrite <- (firstn_skipn o items) at 3. rewrite firstn_app, firstn_firstn, firstn_length, Nat.min_r by lia.
      f_equal. f_equal. lia. }
    rewrite (@check_produced_passes produced' _ _ s' control' (skipn (o + q) items)); auto; [|lia].
    apply IH; auto. lia.
  Qed.

  Lemma bulk_produce_passes : forall psizes ppattern slice_lengths, Forall (fun n => 1 <= n) psizes ->
    fuzz_bulk_produce P (arbitrary_pro items last psizes ppattern) slice_lengths = Ret tt.
  Proof.
    intros psizes ppattern slice_lengths H. unfold fuzz_bulk_produce.
    pose proof (pro_start items last ppattern H) as HR.
    pose proof (@tpi_read _ _ _ items _ (PActive items last 0) HR) as (_ & -> & _). cbn [bind].
    apply (bulk_produce_loop_passes slice_lengths (repeat 0 (length items)) (o := 0)); auto; [lia|apply repeat_length].
  Qed.
End BulkProducePasses.

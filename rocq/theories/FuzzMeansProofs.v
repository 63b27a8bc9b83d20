(** What passing a fuzz target means, for the targets with loops. *)
From Coq Require Import Bool List Arith Lia.
From Verif Require Import Prelude ListFacts QueueModel QueueSpec QueueProofs Traits Contracts ContractFacts
  BasicModel BasicSpec BasicProofs AdaptorModel ScramblerModel MergeModel FuzzModel FuzzSpec FuzzProofs FuzzScramblerProofs.
Import ListNotations.
Set Implicit Arguments.
Set Warnings "-abstract-large-number".

Lemma is_ok_unit : forall E (r : res unit E), assert (is_ok r) = Ret tt <-> r = Ok tt.
Proof. intros E [[]|e]; cbn; split; congruence. Qed.

Lemma index_Ret : forall T i (l : list T) x, index i l = Ret x <-> exists rest, skipn i l = x :: rest.
Proof.
  intros T. induction i as [|i IH]; intros [|y l] x; cbn; try (split; [discriminate|intros (? & H); discriminate]).
  - split; [intros [= ->]; eauto|]. intros (rest & [= -> _]). reflexivity.
  - apply IH.
Qed.

(** ** Bulk calls *)

Section Consume.
  Context {S T F E : Type} (C : consumer S T F E).

  Lemma consumes_app : forall xs ys s s' s'', consumes C xs s s' -> consumes C ys s' s'' -> consumes C (xs ++ ys) s s''.
  Proof. intros xs ys s s' s'' H. induction H; intros H'; cbn; [exact H'|econstructor; eauto]. Qed.

  Lemma consume_each_iff : forall xs s s', consume_each C xs s = Ret s' <-> consumes C xs s s'.
  Proof.
    induction xs as [|x xs IH]; intros s s'; cbn [consume_each].
    - split; [intros [= ->]; constructor|]. intros H. inversion H. reflexivity.
    - split.
      + intros H. apply bind_Ret in H as ([s1 r] & E1 & H). apply seq_Ret in H as [H1 H2]. apply is_ok_unit in H1 as ->.
        apply IH in H2. econstructor; eauto.
      + intros H. inversion H as [|? ? ? s1 ? E1 H']; subst. rewrite E1. cbn [bind is_ok assert]. now apply IH.
  Qed.
End Consume.

Section BulkConsume.
  Context (C : bulk_consumer tcon nat nat nat).

  Lemma repeat_consume_iff : forall n items o control control' o', o <= length items ->
    repeat_consume C n items o control = Ret (control', o') <->
    o' = o + n /\ o' <= length items /\ consumes C (firstn n (skipn o items)) control control'.
  Proof.
    induction n as [|n IH]; intros items o control control' o' Ho; cbn [repeat_consume].
    - rewrite Nat.add_0_r. split.
      + intros [= <- <-]. splits; auto. constructor.
      + intros (-> & _ & H). inversion H. reflexivity.
    - split.
      + intros H. apply bind_Ret in H as (x & E1 & H). apply index_Ret in E1 as (rest & Es).
        apply bind_Ret in H as ([c1 r] & E2 & H). apply seq_Ret in H as [H1 H2]. apply is_ok_unit in H1 as ->.
        assert (Hlt : o < length items) by (apply (f_equal (@length nat)) in Es; rewrite skipn_length in Es; cbn in Es; lia).
        apply IH in H2 as (-> & H3 & H4); [|lia]. splits; [lia..|]. rewrite Es. cbn [firstn].
        rewrite (skipn_cons_next _ _ Es) in H4. econstructor; eauto.
      + intros (-> & Hle & H). destruct (skipn o items) as [|x rest] eqn:Es.
        { apply (f_equal (@length nat)) in Es. rewrite skipn_length in Es. cbn in Es. lia. }
        rewrite (index_skipn _ _ Es). cbn [bind firstn] in *. inversion H as [|? ? ? c1 ? E1 H']; subst.
        rewrite E1. cbn [bind is_ok assert]. apply IH; [lia|]. splits; [lia..|]. now rewrite (skipn_cons_next _ _ Es).
  Qed.

  Lemma bulk_consume_loop_iff : forall lens items o con control, o <= length items ->
    fuzz_bulk_consume_loop C items lens o con control = Ret tt <-> bulk_consume_alike C (skipn o items) lens con control.
  Proof.
    induction lens as [|len lens IH]; intros items o con control Ho; cbn [fuzz_bulk_consume_loop].
    - rewrite same_con_iff. split; [intros H; now constructor; [right|]|]. intros H. inversion H; auto.
    - rewrite slice_from_ok by exact Ho. cbn [bind].
      destruct (skipn o items) as [|x rest] eqn:Es.
      { rewrite same_con_iff. split; [intros H; constructor; auto|]. intros H. inversion H; subst; auto; congruence. }
      assert (Hlen : length items - o = Datatypes.S (length rest)) by (rewrite <- skipn_length, Es; reflexivity).
      rewrite csub_ok by exact Ho. cbn [bind]. destruct (Nat.eqb_spec (Nat.min len (length items - o)) 0) as [E0|E0].
      { assert (len = 0) by lia. subst len.
        rewrite same_con_iff. split; [intros H; constructor; auto|]. intros H. inversion H; subst; auto; lia. }
      rewrite slice_ok by lia. cbn [bind]. replace (o + _ - o) with (Nat.min len (length items - o)) by lia.
      replace (firstn (Nat.min len (length items - o)) (skipn o items)) with (firstn len (skipn o items)).
      2:{ destruct (Nat.le_gt_cases len (length items - o)); [now rewrite Nat.min_l|].
          rewrite !firstn_all2; rewrite ?skipn_length; auto; lia. }
      rewrite Es. split.
      + intros H. apply bind_Ret in H as ([con' [n|e]] & E1 & H).
        * apply bind_Ret in H as ([control' o'] & E2 & H). apply repeat_consume_iff in E2 as (-> & H1 & H2); [|exact Ho].
          apply seq_Ret in H as [H3 H4]. apply same_con_iff in H3. apply IH in H4; [|exact H1].
          rewrite <- skipn_skipn, Es in H4. rewrite Es in H2. eapply bca_ok; eauto; [discriminate|lia|cbn; lia].
        * rewrite (index_skipn _ _ Es) in H. cbn [bind] in H. apply bind_Ret in H as ([control' r] & E2 & H).
          apply bind_Ret in H as (e' & E3 & H). apply unwrap_err_Ret in E3 as ->. apply seq_Ret in H as [H3 H4].
          apply assert_eq_Ret in H3 as <-. apply same_con_iff in H4. eapply bca_err; eauto. lia.
      + intros H. inversion H as [? ? ? ? H1 H2|? ? ? ? ? con' control' n H1 H2 E1 H3 H4 H5 H6|? ? ? ? ? ? con' control' e H1 E1 E2 H2]; subst.
        * destruct H1; [discriminate|]. cbn in *. lia.
        * rewrite E1. cbn [bind].
          assert (E2 : repeat_consume C n items o control = Ret (control', o + n)).
          { apply repeat_consume_iff; auto. rewrite Es. splits; auto. cbn in H3. lia. }
          rewrite E2. cbn [bind]. rewrite (proj2 (same_con_iff _ _) H5). apply IH; [cbn in H3; lia|].
          now rewrite <- skipn_skipn, Es.
        * rewrite E1. cbn [bind]. rewrite (index_skipn _ _ Es). cbn [bind]. rewrite E2. cbn [bind unwrap_err].
          rewrite assert_eq_refl. now apply same_con_iff.
  Qed.

  Lemma bulk_consume_iff : forall con items lens,
    fuzz_bulk_consume C con items lens = Ret tt <-> bulk_consume_alike C items lens con con.
  Proof. intros con items lens. apply (bulk_consume_loop_iff lens items (o := 0)). lia. Qed.
End BulkConsume.

Section BulkProduce.
  Context (P : bulk_producer tpro nat nat nat).

  Lemma repeat_produce_iff : forall n acc o control control' acc' o',
    repeat_produce P n acc o control = Ret (control', (acc', o')) <->
    o' = o + n /\ exists xs, length xs = n /\ acc' = acc ++ xs /\ answers P control (map (fun x => Ok (inl x)) xs) control'.
  Proof.
    induction n as [|n IH]; intros acc o control control' acc' o'; cbn [repeat_produce].
    - split.
      + intros [= <- <- <-]. split; [lia|]. exists []. rewrite app_nil_r. splits; auto. constructor.
      + intros (-> & [|? ?] & Hl & -> & H); [|discriminate]. inversion H. rewrite app_nil_r, Nat.add_0_r. reflexivity.
    - split.
      + intros H. apply bind_Ret in H as ([c1 r] & E1 & H). apply bind_Ret in H as (r' & E2 & H). apply unwrap_Ret in E2 as ->.
        apply bind_Ret in H as (x & E3 & H). destruct r' as [y|f]; [|discriminate]. injection E3 as ->.
        apply IH in H as (-> & xs & Hl & -> & H). split; [lia|]. exists (x :: xs). rewrite <- app_assoc. cbn. splits; auto.
        econstructor; eauto.
      + intros (-> & [|x xs] & Hl & -> & H); [discriminate|]. cbn in H. inversion H as [|? c1 ? ? ? E1 H']; subst.
        rewrite E1. cbn [bind unwrap either_left]. apply IH. split; [lia|]. exists xs. rewrite <- app_assoc. cbn in *. splits; auto.
  Qed.

  Lemma check_produced_iff : forall produced ctl o pro control,
    check_produced produced ctl o pro control = Ret tt <-> o <= length produced /\ firstn o produced = ctl /\ same_pro pro control.
  Proof.
    intros produced ctl o pro control. unfold check_produced. rewrite bind_Ret. split.
    - intros (x & E1 & H). apply slice_to_Ret in E1 as [H1 ->]. apply seq_Ret in H as [H2 H3].
      apply assert_eq_Ret in H2. apply same_pro_iff in H3. auto.
    - intros (H1 & <- & H2). exists (firstn o produced). split; [now apply slice_to_Ret|]. rewrite assert_eq_refl.
      now apply same_pro_iff.
  Qed.

  Lemma firstn_prefix : forall T (l r : list T) n, n <= length l -> firstn n (firstn n l ++ r) = firstn n l.
  Proof.
    intros T l r n H. rewrite firstn_app, firstn_firstn, Nat.min_id, firstn_length_le by exact H.
    now rewrite Nat.sub_diag, firstn_O, app_nil_r.
  Qed.

  Lemma bulk_produce_loop_iff : forall lens num produced o pro control, o <= length produced ->
    fuzz_bulk_produce_loop P lens num produced (firstn o produced) o pro control = Ret tt <->
    bulk_produce_alike P lens (if o <=? num then Some (num - o) else None) (skipn o produced) pro control.
  Proof.
    induction lens as [|len lens IH]; intros num produced o pro control Ho; cbn [fuzz_bulk_produce_loop].
    - rewrite check_produced_iff. split; [intros (_ & _ & H); now constructor|]. intros H. inversion H; auto.
    - unfold csub. destruct (Nat.ltb_spec num o) as [Hlt|Hge]; cbn [bind].
      { split; [discriminate|]. rewrite (proj2 (Nat.leb_gt _ _) Hlt). intros H. inversion H. }
      rewrite (proj2 (Nat.leb_le _ _) Hge). destruct (Nat.eqb_spec (Nat.min len (num - o)) 0) as [E0|E0].
      { rewrite check_produced_iff. split; [intros (_ & _ & H); constructor; auto; lia|]. intros H.
        splits; auto. inversion H; subst; auto; lia. }
      rewrite slice_from_ok by exact Ho. cbn [bind]. split.
      + intros H. apply bind_Ret in H as ([pro' [buf' r]] & E1 & H). destruct r as [[n|f]|e].
        * apply bind_Ret in H as ([control' [acc o']] & E2 & H).
          apply repeat_produce_iff in E2 as (-> & xs & Hl & -> & HA). apply seq_Ret in H as [H1 H2].
          apply check_produced_iff in H1 as (H3 & H4 & H5). rewrite app_length, firstn_length_le in H3 by exact Ho.
          rewrite <- H4 in H2. apply IH in H2; [|rewrite app_length, firstn_length_le; lia].
          assert (Hx : xs = firstn n buf').
          { rewrite firstn_app, firstn_length_le in H4 by exact Ho. rewrite firstn_all2 in H4 by (rewrite firstn_length; lia).
            apply app_inv_head in H4. rewrite <- H4. f_equal. lia. }
          rewrite skipn_app, firstn_length_le, skipn_all2 in H2 by (rewrite ?firstn_length; lia). cbn [app] in H2.
          replace (o + n - o) with n in H2 by lia. subst xs.
          eapply bpa_ok; eauto; [lia..|].
          destruct (Nat.leb_spec n (num - o)), (Nat.leb_spec (o + n) num); try lia; auto.
          now replace (num - o - n) with (num - (o + n)) by lia.
        * apply bind_Ret in H as ([control' r] & E2 & H). apply bind_Ret in H as (r' & E3 & H). apply unwrap_Ret in E3 as ->.
          apply bind_Ret in H as (f' & E4 & H). destruct r' as [?|f2]; [discriminate|]. injection E4 as ->.
          apply seq_Ret in H as [H1 H2]. apply assert_eq_Ret in H1 as <-. apply check_produced_iff in H2 as (_ & _ & H2).
          eapply bpa_end; eauto; lia.
        * apply bind_Ret in H as ([control' r] & E2 & H). apply bind_Ret in H as (e' & E3 & H). apply unwrap_err_Ret in E3 as ->.
          apply seq_Ret in H as [H1 H2]. apply assert_eq_Ret in H1 as <-. apply check_produced_iff in H2 as (_ & _ & H2).
          eapply bpa_err; eauto; lia.
      + intros H. inversion H as [|? ? ? ? ? ? H1 H2|? ? ? ? ? ? pro' control' buf' n H1 H2 E1 H3 HA H4 H5
          |? ? ? ? ? ? pro' control' buf' f H1 H2 E1 E2 H3|? ? ? ? ? ? pro' control' buf' e H1 H2 E1 E2 H3]; subst.
        * lia.
        * rewrite E1. cbn [bind].
          assert (E2 : repeat_produce P n (firstn o produced) o control = Ret (control', (firstn o produced ++ firstn n buf', o + n))).
          { apply repeat_produce_iff. split; [reflexivity|]. exists (firstn n buf'). splits; auto. rewrite firstn_length. lia. }
          rewrite E2. cbn [bind].
          assert (Hf : firstn (o + n) (firstn o produced ++ buf') = firstn o produced ++ firstn n buf').
          { rewrite firstn_app, firstn_length_le, firstn_all2 by (rewrite ?firstn_length; lia).
            f_equal. f_equal. lia. }
          rewrite (proj2 (check_produced_iff _ _ _ _ _)); [|splits; auto; rewrite app_length, firstn_length_le; lia].
          cbn [bind]. rewrite <- Hf. apply IH; [rewrite app_length, firstn_length_le; lia|].
          rewrite skipn_app, firstn_length_le, skipn_all2 by (rewrite ?firstn_length; lia). cbn [app].
          replace (o + n - o) with n by lia.
          destruct (Nat.leb_spec n (num - o)), (Nat.leb_spec (o + n) num); try lia; auto.
          now replace (num - (o + n)) with (num - o - n) by lia.
        * rewrite E1. cbn [bind]. rewrite E2. cbn [bind unwrap either_right]. rewrite assert_eq_refl. cbn [bind].
          apply check_produced_iff. splits; auto; [rewrite app_length, firstn_length_le; lia|now apply firstn_prefix].
        * rewrite E1. cbn [bind]. rewrite E2. cbn [bind unwrap_err]. rewrite assert_eq_refl. cbn [bind].
          apply check_produced_iff. splits; auto; [rewrite app_length, firstn_length_le; lia|now apply firstn_prefix].
  Qed.

  Lemma bulk_produce_iff : forall pro lens,
    fuzz_bulk_produce P pro lens = Ret tt <->
    exists items, test_producer_remaining pro = Ret items /\
      bulk_produce_alike P lens (Some (length items)) (repeat 0 (length items)) pro pro.
  Proof.
    intros pro lens. unfold fuzz_bulk_produce. rewrite bind_Ret. cbv zeta.
    assert (H : forall items : list nat, fuzz_bulk_produce_loop P lens (length items) (repeat 0 (length items)) [] 0 pro pro = Ret tt <->
      bulk_produce_alike P lens (Some (length items)) (repeat 0 (length items)) pro pro).
    { intros items. pose proof (@bulk_produce_loop_iff lens (length items) (repeat 0 (length items)) 0 pro pro ltac:(lia)) as H.
      cbn [firstn skipn Nat.leb] in H. rewrite Nat.sub_0_r in H. exact H. }
    split; intros (items & E1 & H1); exists items; (split; [exact E1|now apply H]).
  Qed.
End BulkProduce.

(** ** Behind a scrambler *)

Lemma pipe_into_vec_iff : forall SP X E (f : SP -> into_vec nat -> outcome (SP * into_vec nat * res X E)) p input,
  fuzz_pipe_into_vec f p input = Ret tt <->
  exists p' v x, f p into_vec_new = Ret (p', v, Ok x) /\ into_vec_into_vec v = input.
Proof.
  intros SP X E f p input. unfold fuzz_pipe_into_vec. rewrite bind_Ret. split.
  - intros ([[p' v] r] & E1 & H). apply seq_Ret in H as [H1 H2]. apply assert_eq_Ret in H2. destruct r as [x|e]; [|discriminate]. eauto.
  - intros (p' & v & x & E1 & <-). exists (p', v, Ok x). split; [exact E1|]. cbn [is_ok assert bind]. apply assert_eq_refl.
Qed.

Lemma into_vec_iff : forall S F E (C : buffered_consumer S nat F E) collect input s,
  fuzz_into_vec_with C collect input s = Ret tt <->
  exists s1 s2, consumes C input s s1 /\ c_flush C s1 = Ret (s2, Ok tt) /\ collect s2 = input.
Proof.
  intros S F E C collect input s. unfold fuzz_into_vec_with. rewrite bind_Ret. split.
  - intros (s1 & E1 & H). apply consume_each_iff in E1. apply bind_Ret in H as ([s2 r] & E2 & H).
    apply seq_Ret in H as [H1 H2]. apply is_ok_unit in H1 as ->. apply assert_eq_Ret in H2. eauto.
  - intros (s1 & s2 & E1 & E2 & H). exists s1. split; [now apply consume_each_iff|]. rewrite E2. cbn [bind is_ok assert].
    now apply assert_eq_Ret.
Qed.

Section ConsumerScrambler.
  Context {S : Type} (C : consumer tcon nat nat nat) (CS : buffered_consumer S nat nat nat) (inner : S -> tcon).

  Lemma consumer_scrambler_iff : forall input fin control s,
    fuzz_consumer_scrambler_loop C CS inner input fin control s = Ret tt <-> mostly_transparent C CS inner input fin control s.
  Proof.
    induction input as [|x input IH]; intros fin control s; cbn [fuzz_consumer_scrambler_loop].
    - split.
      + intros H. apply bind_Ret in H as ([c2 r] & E1 & H). apply bind_Ret in H as ([s2 r'] & E2 & H).
        apply seq_Ret in H as [H1 H2]. apply assert_eq_Ret in H1 as <-. apply same_con_iff in H2.
        left. do 5 eexists. splits; eauto; constructor.
      + intros [(c1 & s1 & c2 & s2 & r & H1 & H2 & E1 & E2 & H3)|(xs & ? & ? & ? & ? & ? & ? & ? & H & _)].
        * inversion H1. inversion H2. subst. rewrite E1. cbn [bind]. rewrite E2. cbn [bind]. rewrite assert_eq_refl.
          now apply same_con_iff.
        * destruct xs; discriminate.
    - split.
      + intros H. apply bind_Ret in H as ([c1 r] & E1 & H). destruct r as [[]|e].
        * apply bind_Ret in H as ([s1 r] & E2 & H). apply seq_Ret in H as [H1 H2]. apply is_ok_unit in H1 as ->.
          apply IH in H2 as [(d1 & t1 & d2 & t2 & r & H3 & H4 & H5)|(xs & y & ys & d1 & t1 & d2 & t2 & e & -> & H3 & H4 & H5)].
          -- left. do 5 eexists. split; [econstructor; eauto|]. split; [econstructor; eauto|exact H5].
          -- right. exists (x :: xs), y, ys. do 5 eexists. split; [reflexivity|]. split; [econstructor; eauto|].
             split; [econstructor; eauto|exact H5].
        * apply bind_Ret in H as ([s1 r] & E2 & H). apply bind_Ret in H as ([s2 e'] & E3 & H).
          apply seq_Ret in H as [H1 H2]. apply assert_eq_Ret in H1 as <-. apply same_con_iff in H2.
          right. exists [], x, input, control, s, c1, s2, e. split; [reflexivity|]. split; [constructor|]. split; [constructor|].
          split; [exact E1|]. split; [|exact H2].
          destruct r as [[]|e'].
          -- right. apply bind_Ret in E3 as ([s3 r] & E4 & E3). apply bind_Ret in E3 as (e' & E5 & E3).
             apply unwrap_err_Ret in E5 as ->. injection E3 as -> ->. eauto.
          -- left. injection E3 as -> ->. exact E2.
      + intros [(c1 & s1 & c2 & s2 & r & H1 & H2 & H3)|([|y xs] & z & ys & c1 & s1 & c2 & s2 & e & Hi & H1 & H2 & H3)].
        * inversion H1 as [|? ? ? c' ? E1 H1']; subst. inversion H2 as [|? ? ? s' ? E2 H2']; subst.
          rewrite E1. cbn [bind]. rewrite E2. cbn [bind is_ok assert]. apply IH. left. eauto 10.
        * injection Hi as <- <-. inversion H1; subst. inversion H2; subst. destruct H3 as (E1 & H3 & H4). rewrite E1. cbn [bind].
          apply same_con_iff in H4.
          destruct H3 as [E2|(s' & E2 & E3)]; rewrite E2; cbn [bind]; [|rewrite E3; cbn [bind unwrap_err]]; rewrite assert_eq_refl; exact H4.
        * cbn in Hi. injection Hi as <- ->. inversion H1 as [|? ? ? c' ? E1 H1']; subst. inversion H2 as [|? ? ? s' ? E2 H2']; subst.
          rewrite E1. cbn [bind]. rewrite E2. cbn [bind is_ok assert]. apply IH. right. exists xs, z, ys. eauto 10.
  Qed.
End ConsumerScrambler.

Section ConsumerInvariant.
  Context {S1 S2 : Type} (CS : consumer S1 nat nat nat) (CI : consumer S2 nat nat nat)
    (inner1 : S1 -> tcon) (inner2 : S2 -> tcon).

  Lemma consumer_invariant_loop_iff : forall input s1 s2 t1 t2,
    fuzz_consumer_invariant_loop CS CI inner1 input s1 s2 = Ret (t1, t2) <->
    exists xs rs, consumed_until (fun s => test_consumer_did_error (inner1 s)) CS input s1 xs t1 /\
      c_answers CS xs s1 rs t1 /\ c_answers CI xs s2 rs t2.
  Proof.
    induction input as [|x input IH]; intros s1 s2 t1 t2; cbn [fuzz_consumer_invariant_loop].
    - split.
      + intros [= <- <-]. exists [], []. repeat constructor.
      + intros (xs & rs & H1 & H2 & H3). inversion H1; subst. inversion H2; subst. inversion H3; subst. reflexivity.
    - split.
      + intros H. apply bind_Ret in H as ([u1 r] & E1 & H). apply bind_Ret in H as ([u2 r'] & E2 & H).
        apply seq_Ret in H as [H1 H]. apply assert_eq_Ret in H1 as <-.
        destruct (test_consumer_did_error (inner1 u1)) eqn:Ed.
        * injection H as <- <-. exists [x], [r]. splits; [eapply consumed_stop; eauto|repeat econstructor; eauto..].
        * apply IH in H as (xs & rs & H1 & H2 & H3). exists (x :: xs), (r :: rs).
          splits; [eapply consumed_step; eauto|econstructor; eauto..].
      + intros (xs & rs & H1 & H2 & H3).
        inversion H1 as [|? ? ? ? r E1 Ed|? ? ys ? u1 ? r E1 Ed H1']; subst.
        * inversion H2 as [|? ? ? ? ? ? ? E1' H2']; subst. inversion H2'; subst.
          inversion H3 as [|? ? ? ? ? ? ? E2 H3']; subst. inversion H3'; subst.
          rewrite E1'. cbn [bind]. rewrite E2. cbn [bind]. rewrite assert_eq_refl. cbn [bind]. now rewrite Ed.
        * inversion H2 as [|? ? ? ? ? ? ? E1' H2']; subst. rewrite E1 in E1'. injection E1' as <- <-.
          inversion H3 as [|? ? ? ? ? ? ? E2 H3']; subst.
          rewrite E1. cbn [bind]. rewrite E2. cbn [bind]. rewrite assert_eq_refl. cbn [bind]. rewrite Ed. apply IH. eauto.
  Qed.

  Lemma consumer_invariant_iff : forall input fin s1 s2,
    fuzz_consumer_invariant_with CS CI inner1 inner2 input fin s1 s2 = Ret tt <-> transparent CS CI inner1 inner2 input fin s1 s2.
  Proof.
    intros input fin s1 s2. unfold fuzz_consumer_invariant_with, transparent. rewrite bind_Ret. split.
    - intros ([t1 t2] & E1 & H). apply consumer_invariant_loop_iff in E1 as (xs & rs & H1 & H2 & H3).
      exists xs, rs, t1, t2. splits; auto. apply bind_Ret in H as ([u1 u2] & E2 & H). apply same_con_iff in H.
      destruct (negb (test_consumer_did_error (inner1 t1))) eqn:Ed.
      + right. apply did_error_false in Ed. split; [exact Ed|].
        apply bind_Ret in E2 as ([v1 r] & E3 & E2). apply bind_Ret in E2 as ([v2 r'] & E4 & E2).
        apply seq_Ret in E2 as [H4 H5]. apply assert_eq_Ret in H4 as <-. injection H5 as -> ->. eauto 6.
      + left. injection E2 as <- <-. apply negb_false_iff, did_error_true in Ed. auto.
    - intros (xs & rs & t1 & t2 & H1 & H2 & H3 & H). exists (t1, t2).
      split; [apply consumer_invariant_loop_iff; eauto|].
      destruct H as [[Ed H]|(Ed & u1 & u2 & r & E1 & E2 & H)].
      + apply did_error_true in Ed. rewrite Ed. cbn [negb bind]. now apply same_con_iff.
      + apply did_error_false in Ed. rewrite Ed. cbn [bind]. rewrite E1. cbn [bind]. rewrite E2. cbn [bind].
        rewrite assert_eq_refl. cbn [bind]. now apply same_con_iff.
  Qed.
End ConsumerInvariant.

(** ** Merge *)

Section Merge.
  Context {M : Type} (produce : list choice -> M -> outcome (M * list choice * option (res (nat * bool + nat) nat))).
  Context (xs ys : list nat) (l1 l2 : res nat nat).

  Lemma skipn_next : forall T o (l : list T) x rest, skipn o l = x :: rest -> skipn (o + 1) l = rest /\ o + 1 <= length l.
  Proof.
    intros T o l x rest H. split; [eapply skipn_cons_next; eauto|].
    apply (f_equal (@length T)) in H. rewrite skipn_length in H. cbn in H. lia.
  Qed.

  Lemma skipn_nil_length : forall T o (l : list T), o <= length l -> skipn o l = [] -> o = length l.
  Proof. intros T o l Ho H. apply (f_equal (@length T)) in H. rewrite skipn_length in H. cbn in H. lia. Qed.

  Lemma either_last : forall l, (eqb l l1 || eqb l l2) = true <-> l = l1 \/ l = l2.
  Proof. intros l. rewrite orb_true_iff, !eqb_true. tauto. Qed.

  Lemma merge_loop_iff : forall fuel sched m o1 o2, o1 <= length xs -> o2 <= length ys ->
    fuzz_merge_loop produce xs ys l1 l2 fuel sched m o1 o2 = Ret (Some tt) <->
    exists zs last, length zs < fuel /\ merged_answers produce sched m zs last /\
      merge_report (skipn o1 xs) (skipn o2 ys) l1 l2 zs last.
  Proof.
    induction fuel as [|fuel IH]; intros sched m o1 o2 Ho1 Ho2; cbn [fuzz_merge_loop].
    { split; [discriminate|]. intros (zs & last & H & _). lia. }
    split.
    - intros H. apply bind_Ret in H as ([[m' sched'] [r|]] & E1 & H); [|discriminate]. destruct r as [[[z b]|f]|e].
      + destruct b; apply bind_Ret in H as (z' & E2 & H); apply index_Ret in E2 as (rest & Es);
          apply seq_Ret in H as [H1 H]; apply assert_eq_Ret in H1 as ->; destruct (skipn_next _ _ Es) as [Es' Hle];
          apply IH in H; auto; destruct H as (zs & last & Hl & HA & HL & xs' & ys' & H1 & H2 & H3).
        * exists ((z, true) :: zs), last. splits; [cbn; lia|econstructor; eauto|]. split; [exact HL|].
          exists xs', ys'. splits; auto. rewrite Es. cbn. now rewrite <- Es', H1.
        * exists ((z, false) :: zs), last. splits; [cbn; lia|econstructor; eauto|]. split; [exact HL|].
          exists xs', ys'. splits; auto. rewrite Es. cbn. now rewrite <- Es', H2.
      + apply seq_Ret in H as [H1 H]. apply seq_Ret in H as [H2 H]. apply seq_Ret in H as [H3 _].
        apply assert_eq_Ret in H1. apply assert_eq_Ret in H2. apply assert_Ret, either_last in H3.
        exists [], (Ok f). splits; [cbn; lia|econstructor; eauto|]. split; [exact H3|]. exists [], []. subst.
        rewrite !skipn_all. cbn. auto.
      + apply seq_Ret in H as [H3 _]. apply assert_Ret, either_last in H3.
        exists [], (Err e). splits; [cbn; lia|econstructor; eauto|]. split; [exact H3|]. eexists _, _. cbn. auto.
    - intros (zs & last & Hl & HA & HL & xs' & ys' & H1 & H2 & H3).
      inversion HA as [? ? sched' m' [z b] zs' ? E1 HA'|? ? sched' m' f E1|? ? sched' m' e E1]; subst; rewrite E1; cbn [bind].
      + destruct b; cbn in H1, H2.
        * rewrite (index_skipn _ _ H1). cbn [bind]. rewrite assert_eq_refl. cbn [bind]. destruct (skipn_next _ _ H1) as [Es' Hle].
          apply IH; auto. exists zs', last. cbn in Hl. splits; [lia|exact HA'|]. split; [exact HL|]. exists xs', ys'. auto.
        * rewrite (index_skipn _ _ H2). cbn [bind]. rewrite assert_eq_refl. cbn [bind]. destruct (skipn_next _ _ H2) as [Es' Hle].
          apply IH; auto. exists zs', last. cbn in Hl. splits; [lia|exact HA'|]. split; [exact HL|]. exists xs', ys'. auto.
      + destruct H3 as [-> ->]. cbn in H1, H2. apply skipn_nil_length in H1; auto. apply skipn_nil_length in H2; auto.
        rewrite (proj2 (assert_eq_Ret _ _ _) H1). cbn [bind]. rewrite (proj2 (assert_eq_Ret _ _ _) H2). cbn [bind].
        now rewrite (proj2 (either_last _) HL).
      + now rewrite (proj2 (either_last _) HL).
  Qed.

  Lemma merge_loop_start_iff : forall fuel sched m,
    fuzz_merge_loop produce xs ys l1 l2 fuel sched m 0 0 = Ret (Some tt) <->
    exists zs last, length zs < fuel /\ merged_answers produce sched m zs last /\ merge_report xs ys l1 l2 zs last.
  Proof. intros fuel sched m. apply (@merge_loop_iff fuel sched m 0 0); lia. Qed.
End Merge.

(** Proofs: pipes, slices, codecs and Merge over objects that are alike; laws about adaptors. *)
From Coq Require Import Bool List Arith Lia.
From Coq.Init Require Import Byte.
From Verif Require Import Prelude ListFacts QueueModel Traits BasicModel AdaptorModel ScramblerModel MergeModel CodecModel
  EndianModel TowerModel Contracts AdaptorSpec RulesSpec RulesProofs RulesAdaptorProofs SafeSpec AlikeSpec AlikeProofs.
Import ListNotations.
Set Implicit Arguments.

Section MapItem.
  Context {S1 S2 T F E : Type}.

  Lemma map_item_producer_alike : forall U W sl (P1 : buffered_producer S1 T F E) (P2 : buffered_producer S2 T F E) (f : W -> T -> W * U) s1 s2 w,
    alike_buffered_producer sl P1 P2 s1 s2 -> alike_buffered_producer sl (map_item_producer P1 f) (map_item_producer P2 f) (mk_map_item s1 w) (mk_map_item s2 w).
  Proof.
    intros U W sl P1 P2 f s1 s2 w H.
    apply alike_bp_intro with (R := fun a b => mi_closure a = mi_closure b /\ alike_buffered_producer sl P1 P2 (mi_inner a) (mi_inner b)); [..|now split]; clear s1 s2 w H.
    - intros [s1 w1] [s2 w2] [Ew H]. cbn in *. subst. unfold map_item_produce. cbn. eapply both_bind; [apply (alike_bp_produce H)|].
      intros [i1 [[x|g]|e]] [i2 r] [E1 H1]; cbn in *; subst; [|split; [reflexivity|discriminate]..].
      destruct (f w2 x). cbn. split; [reflexivity|]. intros i _. split; [reflexivity|]. now apply (H1 x).
    - intros [s1 w1] [s2 w2] Hsl [Ew H]. cbn in *. subst. unfold map_item_slurp. cbn. eapply both_bind; [apply (alike_bp_slurp eq_refl H)|].
      intros [i1 r1] [i2 r] [E1 H1]; cbn in *; subst. auto.
  Qed.
  Lemma map_item_consumer_alike : forall U W (C1 : buffered_consumer S1 T F E) (C2 : buffered_consumer S2 T F E) (f : W -> U -> W * T) s1 s2 w,
    alike_buffered_consumer C1 C2 s1 s2 -> alike_buffered_consumer (map_item_consumer C1 f) (map_item_consumer C2 f) (mk_map_item s1 w) (mk_map_item s2 w).
  Proof.
    intros U W C1 C2 f s1 s2 w H.
    apply alike_bc_intro with (R := fun a b => mi_closure a = mi_closure b /\ alike_buffered_consumer C1 C2 (mi_inner a) (mi_inner b)); [..|now split]; clear s1 s2 w H.
    - intros x [s1 w1] [s2 w2] [Ew H]. cbn in *. subst. unfold map_item_consume. cbn. destruct (f w2 x) as [w y]. eapply both_bind; [apply (alike_bc_consume y H)|].
      intros [i1 r1] [i2 r] [E1 H1]; cbn in *; subst. auto.
    - intros x [s1 w1] [s2 w2] [Ew H]. cbn in *. subst. unfold map_item_close. cbn. eapply both_bind; [apply (alike_bc_close x H)|].
      intros [i1 r1] [i2 r] E1; cbn in *; subst. auto.
    - intros [s1 w1] [s2 w2] [Ew H]. cbn in *. subst. unfold map_item_flush. cbn. eapply both_bind; [apply (alike_bc_flush H)|].
      intros [i1 r1] [i2 r] [E1 H1]; cbn in *; subst. auto.
  Qed.
End MapItem.

(** ** Merge *)
Lemma merge_alike : forall S1 S2 S1' S2' T F E sl1 sl2 (P1 : buffered_producer S1 T F E) (P2 : buffered_producer S2 T F E)
    (P1' : buffered_producer S1' T F E) (P2' : buffered_producer S2' T F E) s1 s2 s1' s2',
  alike_buffered_producer sl1 P1 P1' s1 s1' -> alike_buffered_producer sl2 P2 P2' s2 s2' ->
  alike_merge P1 P2 P1' P2' (merge_new s1 s2) (merge_new s1' s2').
Proof.
  intros S1 S2 S1' S2' T F E sl1 sl2 P1 P2 P1' P2' s1 s2 s1' s2' H1 H2.
  set (lift := fun X Y (R : X -> Y -> Prop) (a : option X) (b : option Y) => match a, b with Some x, Some y => R x y | None, None => True | _, _ => False end).
  set (ok := fun (a : merge S1 S2) (b : merge S1' S2') =>
    lift _ _ (alike_buffered_producer sl1 P1 P1') (produce_future1 a) (produce_future1 b) /\
    lift _ _ (alike_buffered_producer sl2 P2 P2') (produce_future2 a) (produce_future2 b)).
  set (post := fun (x : merge S1 S2 * polled (res (T + F) E)) (y : merge S1' S2' * polled (res (T + F) E)) =>
    snd x = snd y /\ match snd x with Ready (Ok (inl _)) | Pending | Again => ok (fst x) (fst y) | _ => True end).
  assert (Hleft : forall a b s s', ok a b -> alike_buffered_producer sl1 P1 P1' s s' -> both post (merge_left P1 s a) (merge_left P1' s' b)).
  { intros a b s s' [_ Hb] Hs. unfold merge_left. eapply both_bind; [apply (alike_bp_produce Hs)|].
    intros [t [[i|f]|e]] [t' r] [E1 Ht]; cbn [fst snd] in *; subst r; (split; [reflexivity|]); cbn; auto.
    - split; [|exact Hb]. exact (Ht _ eq_refl).
    - split; [exact Logic.I|exact Hb]. }
  assert (Hright : forall a b s s', ok a b -> alike_buffered_producer sl2 P2 P2' s s' -> both post (merge_right P2 s a) (merge_right P2' s' b)).
  { intros a b s s' [Ha _] Hs. unfold merge_right. eapply both_bind; [apply (alike_bp_produce Hs)|].
    intros [t [[i|f]|e]] [t' r] [E1 Ht]; cbn [fst snd] in *; subst r; (split; [reflexivity|]); cbn; auto.
    - split; [exact Ha|]. exact (Ht _ eq_refl).
    - split; [exact Ha|exact Logic.I]. }
  assert (Hstep : forall c a b, ok a b -> both post (merge_step P1 P2 c a) (merge_step P1' P2' c b)).
  { intros c [f1 f2] [g1 g2] Hm. pose proof Hm as [Ha Hb]. unfold merge_step. cbn [produce_future1 produce_future2] in *.
    destruct f1 as [s|], g1 as [s'|]; cbn in Ha; try contradiction; destruct f2 as [t|], g2 as [t'|]; cbn in Hb; try contradiction.
    - destruct c as [[|] [|] [|]]; cbn [second_first ready1 ready2]; first [apply Hleft; assumption | apply Hright; assumption | split; [reflexivity|exact Hm]].
    - destruct (ready1 c); [|split; [reflexivity|exact Hm]]. eapply both_bind; [apply (alike_bp_produce Ha)|].
      intros [u [[i|f]|e]] [u' r] [E1 Hu]; cbn [fst snd] in *; subst r; (split; [reflexivity|]); cbn; auto. split; [|exact Logic.I]. exact (Hu _ eq_refl).
    - destruct (ready2 c); [|split; [reflexivity|exact Hm]]. eapply both_bind; [apply (alike_bp_produce Hb)|].
      intros [u [[i|f]|e]] [u' r] [E1 Hu]; cbn [fst snd] in *; subst r; (split; [reflexivity|]); cbn; auto. split; [exact Logic.I|]. exact (Hu _ eq_refl).
    - exact Logic.I. }
  assert (Hrun : forall sched a b, ok a b ->
    both (fun x y => snd x = snd y /\ match snd x with None | Some (Ok (inl _)) => ok (fst (fst x)) (fst (fst y)) | _ => True end)
      (merge_produce P1 P2 sched a) (merge_produce P1' P2' sched b)).
  { induction sched as [|c sched IH]; intros a b Hm; cbn [merge_produce]; [split; [reflexivity|exact Hm]|].
    eapply both_bind; [apply (Hstep c a b Hm)|]. intros [a' p] [b' p'] [E1 H]; cbn [fst snd] in *. subst p'. destruct p as [| |r]; [apply (IH _ _ H)..|].
    cbn. split; [reflexivity|]. exact H. }
  apply alike_intro with (R := fun (over : bool) a b => over = true \/ ok a b).
  - intros [|] a b sched HI Ho; [discriminate|]. destruct HI as [HI|HI]; [discriminate|].
    eapply both_bind; [apply (Hrun sched a b HI)|]. intros [[a' rest] x] [[b' rest'] x'] [E1 H]. cbn in *. subst x'. split; [reflexivity|]. destruct x as [[[i|f]|e]|]; auto.
  - right. split; assumption.
Qed.

(** ** Pipes *)
Section Pipes.
  Context {SP1 SP2 SC1 SC2 T F PE CE : Type}.

  Section Plain.
    Variables (sl : bool) (P1 : buffered_producer SP1 T F PE) (P2 : buffered_producer SP2 T F PE) (C1 : buffered_consumer SC1 T F CE) (C2 : buffered_consumer SC2 T F CE).
    Notation IP := (alike_buffered_producer sl P1 P2).
    Notation IC := (alike_buffered_consumer C1 C2).

    Lemma pipe_alike : forall fuel sp1 sp2 sc1 sc2, IP sp1 sp2 -> IC sc1 sc2 ->
      both (pipes_alike (fun _ => False) IP IC) (pipe fuel P1 C1 sp1 sc1) (pipe fuel P2 C2 sp2 sc2).
    Proof.
      induction fuel as [|fuel IH]; intros sp1 sp2 sc1 sc2 Hp Hc; cbn [pipe]; [exact Logic.I|].
      eapply both_bind; [apply (alike_bp_produce Hp)|]. intros [sp1' [[i|f]|e]] [sp2' r] [E1 H]; cbn [fst snd] in *; subst r.
      - eapply both_bind; [apply (alike_bc_consume i Hc)|]. intros [sc1' [[]|e]] [sc2' r] [E1 H2]; cbn [fst snd] in *; subst r; [|now split].
        apply IH; eauto.
      - eapply both_bind; [apply (alike_bc_close f Hc)|]. intros [sc1' [[]|e]] [sc2' r] E1; cbn [fst snd] in *; subst r; (split; [reflexivity|]); cbn; auto. intros [].
      - split; [reflexivity|exact Hc].
    Qed.

    Lemma pipe_at_most_alike : forall todo piped sp1 sp2 sc1 sc2, IP sp1 sp2 -> IC sc1 sc2 ->
      both (pipes_alike (fun n => n = piped + todo) IP IC) (pipe_at_most_loop todo P1 C1 piped sp1 sc1) (pipe_at_most_loop todo P2 C2 piped sp2 sc2).
    Proof.
      induction todo as [|todo IH]; intros piped sp1 sp2 sc1 sc2 Hp Hc; cbn [pipe_at_most_loop]; [split; [reflexivity|]; cbn; auto|].
      eapply both_bind; [apply (alike_bp_produce Hp)|]. intros [sp1' [[i|f]|e]] [sp2' r] [E1 H]; cbn [fst snd] in *; subst r.
      - eapply both_bind; [apply (alike_bc_consume i Hc)|]. intros [sc1' [[]|e]] [sc2' r] [E1 H2]; cbn [fst snd] in *; subst r; [|now split].
        replace (piped + Datatypes.S todo) with (piped + 1 + todo) by lia. apply IH; eauto.
      - eapply both_bind; [apply (alike_bc_close f Hc)|]. intros [sc1' [[]|e]] [sc2' r] E1; cbn [fst snd] in *; subst r; (split; [reflexivity|]); cbn; auto. intros H3. lia.
      - split; [reflexivity|exact Hc].
    Qed.
  End Plain.

  Section Bulk.
    Variables (sl : bool) (P1 : bulk_producer SP1 T F PE) (P2 : bulk_producer SP2 T F PE) (C1 : bulk_consumer SC1 T F CE) (C2 : bulk_consumer SC2 T F CE).
    Hypothesis honest : honest_count C1.
    Notation IP := (alike_p sl P1 P2 0).
    Notation IC := (alike_c C1 C2 0 0).

    Lemma both_eq : forall X Y (Q : X -> Y -> Prop) o1 o2, both Q o1 o2 -> both (fun x y => Q x y /\ o1 = Ret x) o1 o2.
    Proof. intros X Y Q [x| |] [y| |] H; cbn in *; auto. Qed.

    Lemma bulk_pipe_alike : forall fuel sp1 sp2 sc1 sc2 k k' w, alike_p sl P1 P2 k sp1 sp2 -> alike_c C1 C2 k' w sc1 sc2 ->
      both (pipes_alike (fun _ => False) IP IC) (bulk_pipe fuel P1 C1 sp1 sc1) (bulk_pipe fuel P2 C2 sp2 sc2).
    Proof.
      induction fuel as [|fuel IH]; intros sp1 sp2 sc1 sc2 k k' w Hp Hc; cbn [bulk_pipe]; [exact Logic.I|].
      eapply both_bind; [apply (alike_expose Hp)|]. intros [sp1' [[ys|f]|e]] [sp2' r] [E1 H]; cbn [fst snd] in *; subst r.
      - eapply both_bind; [apply both_eq, (alike_bulk_consume ys Hc)|]. intros [sc1' [n|e]] [sc2' r] [[E1 H2] En]; cbn [fst snd] in *; subst r; [|now split].
        eapply both_bind; [apply (alike_consider (H _ eq_refl) (honest _ _ En))|]. intros [sp1b [[]|e]] [sp2b r] [E1 H3]; cbn [fst snd] in *; subst r.
        + eapply IH; eauto.
        + split; [reflexivity|]. cbn. eauto.
      - eapply both_bind; [apply (alike_close f Hc)|]. intros [sc1' [[]|e]] [sc2' r] E1; cbn [fst snd] in *; subst r; (split; [reflexivity|]); cbn; auto. intros [].
      - split; [reflexivity|]. cbn. eapply alike_c_less; [exact Hc|lia|lia].
    Qed.

    Lemma bulk_pipe_at_most_alike : forall fuel count piped sp1 sp2 sc1 sc2 k k' w, piped <= count -> alike_p sl P1 P2 k sp1 sp2 -> alike_c C1 C2 k' w sc1 sc2 ->
      both (pipes_alike (fun n => n = count) IP IC) (bulk_pipe_at_most_loop fuel P1 C1 count piped sp1 sc1) (bulk_pipe_at_most_loop fuel P2 C2 count piped sp2 sc2).
    Proof.
      induction fuel as [|fuel IH]; intros count piped sp1 sp2 sc1 sc2 k k' w Hle Hp Hc; cbn [bulk_pipe_at_most_loop]; [exact Logic.I|].
      destruct (piped <? count) eqn:El.
      2: { split; [reflexivity|]. cbn. intros _. split; [eapply alike_p_less; [exact Hp|lia]|eapply alike_c_less; [exact Hc|lia|lia]]. }
      apply Nat.ltb_lt in El. eapply both_bind; [apply (alike_expose Hp)|]. intros [sp1' [[ys|f]|e]] [sp2' r] [E1 H]; cbn [fst snd] in *; subst r.
      - rewrite csub_ok by lia. cbn [bind]. rewrite slice_to_ok by lia. cbn [bind].
        eapply both_bind; [apply both_eq, (alike_bulk_consume _ Hc)|]. intros [sc1' [n|e]] [sc2' r] [[E1 H2] En]; cbn [fst snd] in *; subst r; [|now split].
        apply honest in En. rewrite firstn_length in En.
        assert (Hn : n <= length ys) by lia.
        eapply both_bind; [apply (alike_consider (H _ eq_refl) Hn)|]. intros [sp1b [[]|e]] [sp2b r] [E1 H3]; cbn [fst snd] in *; subst r.
        + eapply IH; eauto. lia.
        + split; [reflexivity|]. cbn. eauto.
      - eapply both_bind; [apply (alike_close f Hc)|]. intros [sc1' [[]|e]] [sc2' r] E1; cbn [fst snd] in *; subst r; (split; [reflexivity|]); cbn; auto. intros H3. lia.
      - split; [reflexivity|]. cbn. eapply alike_c_less; [exact Hc|lia|lia].
    Qed.
  End Bulk.
End Pipes.

(** ** Whole slices *)
Section Slices.
  Context {S1 S2 T F E : Type}.

  Lemma consume_full_slice_alike : forall (C1 : buffered_consumer S1 T F E) (C2 : buffered_consumer S2 T F E) buf i s1 s2, alike_buffered_consumer C1 C2 s1 s2 ->
    both (fun x y => snd x = snd y /\ (is_ok (snd x) = true -> alike_buffered_consumer C1 C2 (fst x) (fst y)))
      (consume_full_slice_from C1 i buf s1) (consume_full_slice_from C2 i buf s2).
  Proof.
    intros C1 C2. induction buf as [|y buf IH]; intros i s1 s2 H; cbn [consume_full_slice_from]; [cbn; auto|].
    eapply both_bind; [apply (alike_bc_consume y H)|]. intros [s1' [[]|e]] [s2' r] [E1 Hs]; cbn [fst snd] in *; subst r; [apply IH; auto|split; [reflexivity|discriminate]].
  Qed.

  Lemma overwrite_full_slice_alike : forall sl (P1 : buffered_producer S1 T F E) (P2 : buffered_producer S2 T F E) todo i buf s1 s2,
    alike_buffered_producer sl P1 P2 s1 s2 ->
    both (fun x y => snd x = snd y /\ (is_ok (snd (snd x)) = true -> alike_buffered_producer sl P1 P2 (fst x) (fst y)))
      (overwrite_full_slice_from P1 todo i buf s1) (overwrite_full_slice_from P2 todo i buf s2).
  Proof.
    intros sl P1 P2. induction todo as [|todo IH]; intros i buf s1 s2 H; cbn [overwrite_full_slice_from]; [cbn; auto|].
    eapply both_bind; [apply (alike_bp_produce H)|]. intros [s1' [[y|f]|e]] [s2' r] [E1 Hs]; cbn [fst snd] in *; subst r; [|split; [reflexivity|discriminate]..].
    apply both_same. intros b. apply IH. eauto.
  Qed.

  Lemma bulk_consume_full_slice_alike : forall (C1 : bulk_consumer S1 T F E) (C2 : bulk_consumer S2 T F E) fuel i buf s1 s2 k w, alike_c C1 C2 k w s1 s2 ->
    both (fun x y => snd x = snd y /\ (is_ok (snd x) = true -> alike_c C1 C2 0 0 (fst x) (fst y)))
      (bulk_consume_full_slice_loop fuel C1 i buf s1) (bulk_consume_full_slice_loop fuel C2 i buf s2).
  Proof.
    intros C1 C2. induction fuel as [|fuel IH]; intros i buf s1 s2 k w H; cbn [bulk_consume_full_slice_loop]; [exact Logic.I|].
    destruct (i <? length buf) eqn:El; [|split; [reflexivity|]; cbn; intros _; eapply alike_c_less; [exact H|lia|lia]]. apply both_same. intros rest.
    eapply both_bind; [apply (alike_bulk_consume _ H)|]. intros [s1' [n|e]] [s2' r] [E1 Hs]; cbn [fst snd] in *; subst r; [eapply IH; eauto|split; [reflexivity|discriminate]].
  Qed.

  Lemma bulk_overwrite_full_slice_alike : forall sl (P1 : bulk_producer S1 T F E) (P2 : bulk_producer S2 T F E) fuel i buf s1 s2 k, alike_p sl P1 P2 k s1 s2 ->
    both (fun x y => snd x = snd y /\ (is_ok (snd (snd x)) = true -> alike_p sl P1 P2 0 (fst x) (fst y)))
      (bulk_overwrite_full_slice_loop fuel P1 i buf s1) (bulk_overwrite_full_slice_loop fuel P2 i buf s2).
  Proof.
    intros sl P1 P2. induction fuel as [|fuel IH]; intros i buf s1 s2 k H; cbn [bulk_overwrite_full_slice_loop]; [exact Logic.I|].
    destruct (i <? length buf) eqn:El; [|split; [reflexivity|]; cbn; intros _; eapply alike_p_less; [exact H|lia]]. apply both_same. intros rest.
    eapply both_bind; [apply (alike_bulk_produce _ H)|]. intros [s1' [b [[n|f]|e]]] [s2' [b' r]] [E1 Hs]; cbn [fst snd] in *; injection E1 as <- <-;
      [eapply IH; eauto|split; [reflexivity|discriminate]..].
  Qed.
End Slices.

(** ** Codecs *)
Section Codecs.
  Context {S1 S2 F E V O RT : Type}.

  Lemma encoder_alike : forall (encode : encode_fn V) (C1 : bulk_consumer S1 byte F E) (C2 : bulk_consumer S2 byte F E) s1 s2,
    uniform_encode encode -> obedient_encode encode -> alike_consumer C1 C2 s1 s2 ->
    alike_buffered_consumer (encoder encode C1) (encoder encode C2) s1 s2.
  Proof.
    intros encode C1 C2 s1 s2 HU HO H ops. eapply alike_through.
    - apply (@encoder_kept nf _ _ _ _ encode C1 HO ops (s1, cmon_new) false). intros _. reflexivity.
    - apply (@encoder_kept nf _ _ _ _ encode C2 HO ops (s2, cmon_new) false). intros _. reflexivity.
    - pose proof (@guard_consumers_related _ _ _ _ _ C1 C2) as HR. revert ops.
      apply (@alike_bc_intro _ _ _ _ _ (encoder encode (guard_consumer nf C1)) (encoder encode (guard_consumer nf C2)) (gc_rel C1 C2)); [..|split; [reflexivity|exact H]].
      + intros v a b Hab. eapply both_weaken; [exact (HU _ _ _ _ _ _ _ HR v a b Hab)|]. intros x y [H1 H2]. auto.
      + intros f a b Hab. eapply both_weaken; [apply (rel_close HR); exact Hab|]. intros x y [H1 H2]. auto.
      + intros a b Hab. eapply both_weaken; [apply (rel_flush HR); exact Hab|]. intros x y [H1 H2]. auto.
  Qed.

  Lemma relative_encoder_alike : forall (encode : RT -> encode_fn V) (C1 : bulk_consumer S1 byte F E) (C2 : bulk_consumer S2 byte F E) s1 s2 r,
    (forall r, uniform_encode (encode r)) -> (forall r, obedient_encode (encode r)) -> alike_consumer C1 C2 s1 s2 ->
    alike_buffered_consumer (relative_encoder encode C1) (relative_encoder encode C2) (mk_relative s1 r) (mk_relative s2 r).
  Proof.
    intros encode C1 C2 s1 s2 r HU HO H ops. eapply alike_through.
    - apply (@relative_encoder_kept nf _ _ _ _ _ encode C1 HO ops (mk_relative (s1, cmon_new) r) false). intros _. reflexivity.
    - apply (@relative_encoder_kept nf _ _ _ _ _ encode C2 HO ops (mk_relative (s2, cmon_new) r) false). intros _. reflexivity.
    - pose proof (@guard_consumers_related _ _ _ _ _ C1 C2) as HR. revert ops.
      apply (@alike_bc_intro _ _ _ _ _ (relative_encoder encode (guard_consumer nf C1)) (relative_encoder encode (guard_consumer nf C2))
        (fun a b => gc_rel C1 C2 (rel_inner a) (rel_inner b) /\ relative_to a = relative_to b)); [..|repeat split; exact H].
      + intros v [a ra] [b rb] [Hab Hr]. cbn in Hab, Hr. subst. cbn. unfold on_inner. cbn.
        eapply both_bind; [exact (HU rb _ _ _ _ _ _ _ HR v a b Hab)|]. intros [x rx] [y ry] [H1 H2]. cbn in *. auto.
      + intros f [a ra] [b rb] [Hab Hr]. cbn in Hab, Hr. subst. cbn -[guard_consumer]. unfold on_inner. cbn -[guard_consumer].
        eapply both_bind; [apply (rel_close HR); exact Hab|]. intros [x rx] [y ry] [H1 H2]. cbn in *. auto.
      + intros [a ra] [b rb] [Hab Hr]. cbn in Hab, Hr. subst. cbn -[guard_consumer]. unfold on_inner. cbn -[guard_consumer].
        eapply both_bind; [apply (rel_flush HR); exact Hab|]. intros [x rx] [y ry] [H1 H2]. cbn in *. auto.
  Qed.

  Lemma bp_true : forall X1 X2 T G B (P1 : buffered_producer X1 T G B) (P2 : buffered_producer X2 T G B) s1 s2,
    (forall ops, omap snd (bp_obeying P1 ops false s1) = omap snd (bp_obeying P2 ops false s2)) -> alike_buffered_producer true P1 P2 s1 s2.
  Proof.
    intros X1 X2 T G B P1 P2 s1 s2 H. apply (@alike_mono _ _ _ _ _ _ _ _ _ _ eq) with (2 := eq_refl) (3 := H).
    intros m m' o <- Ho. split; [now destruct m|reflexivity].
  Qed.
  Lemma true_bp : forall X1 X2 T G B (P1 : buffered_producer X1 T G B) (P2 : buffered_producer X2 T G B) s1 s2,
    alike_buffered_producer true P1 P2 s1 s2 -> forall ops, omap snd (bp_obeying P1 ops false s1) = omap snd (bp_obeying P2 ops false s2).
  Proof.
    intros X1 X2 T G B P1 P2 s1 s2 H. apply (@alike_mono _ _ _ _ _ _ _ _ _ _ eq) with (2 := eq_refl) (3 := H).
    intros m m' o <- Ho. split; [rewrite Ho; now destruct o|reflexivity].
  Qed.

  Lemma decoder_produce_related : forall (decode : decode_fn V O) (P1 : bulk_producer S1 byte F E) (P2 : bulk_producer S2 byte F E) R,
    uniform_decode decode -> related_producers R P1 P2 -> forall s1 s2, R s1 s2 -> both (linked R) (decoder_produce decode P1 s1) (decoder_produce decode P2 s2).
  Proof.
    intros decode P1 P2 R HU HR s1 s2 H. unfold decoder_produce. eapply both_bind; [apply (rel_expose HR); exact H|].
    intros [a r1] [b r2] [H1 H2]. cbn [fst snd] in *. subst. destruct r2 as [[ys|f]|e]; [|split; cbn; auto..].
    eapply both_bind; [exact (HU _ _ _ _ _ _ _ HR a b H1)|]. intros [a2 r1] [b2 r2] [H3 H4]. cbn [fst snd] in *. subst. destruct r2; split; cbn; auto.
  Qed.
  Lemma decoder_slurp_related : forall (P1 : bulk_producer S1 byte F E) (P2 : bulk_producer S2 byte F E) R,
    related_producers R P1 P2 -> forall s1 s2, R s1 s2 -> both (linked R) (@decoder_slurp _ _ _ O P1 s1) (decoder_slurp P2 s2).
  Proof.
    intros P1 P2 R HR s1 s2 H. unfold decoder_slurp. eapply both_bind; [apply (rel_slurp HR); exact H|].
    intros [a r1] [b r2] [H1 H2]. cbn [fst snd] in *. subst. split; cbn; auto.
  Qed.

End Codecs.

Section Decoder.
  Context {S1 S2 F E V O : Type}.

  Lemma decoder_alike : forall (decode : decode_fn V O) (P1 : bulk_producer S1 byte F E) (P2 : bulk_producer S2 byte F E) s1 s2,
    uniform_decode decode -> obedient_decode decode -> alike_producer true P1 P2 s1 s2 ->
    alike_buffered_producer true (decoder decode P1) (decoder decode P2) s1 s2.
  Proof.
    intros decode P1 P2 s1 s2 HU HO H. apply bp_true. intros ops. eapply alike_through.
    - apply (@decoder_kept nf _ _ _ _ _ decode P1 HO ops (s1, pmon_new) false). intros _. reflexivity.
    - apply (@decoder_kept nf _ _ _ _ _ decode P2 HO ops (s2, pmon_new) false). intros _. reflexivity.
    - pose proof (@guard_producers_related _ _ _ _ _ P1 P2) as HR. revert ops. apply true_bp.
      apply (@alike_bp_intro _ _ _ _ _ true (decoder decode (guard_producer nf P1)) (decoder decode (guard_producer nf P2)) (gp_rel P1 P2)); [..|].
      + intros a b Hab. eapply both_weaken; [apply (decoder_produce_related HU HR); exact Hab|]. intros x y [H1 H2]. auto.
      + intros a b _ Hab. eapply both_weaken; [apply (decoder_slurp_related HR); exact Hab|]. intros x y [H1 H2]. auto.
      + split; [reflexivity|apply alike_p_true, H].
  Qed.
End Decoder.

Section RelativeDecoder.
  Context {S1 S2 F E V O RT : Type}.

  Lemma relative_decoder_alike : forall (decode : RT -> decode_fn V O) (P1 : bulk_producer S1 byte F E) (P2 : bulk_producer S2 byte F E) s1 s2 r,
    (forall r, uniform_decode (decode r)) -> (forall r, obedient_decode (decode r)) -> alike_producer true P1 P2 s1 s2 ->
    alike_buffered_producer true (relative_decoder decode P1) (relative_decoder decode P2) (mk_relative s1 r) (mk_relative s2 r).
  Proof.
    intros decode P1 P2 s1 s2 r HU HO H.
    pose proof (@decoder_alike _ _ _ _ _ _ (decode r) P1 P2 s1 s2 (HU r) (HO r) H) as HD. clear H.
    apply alike_bp_intro with (R := fun a b => relative_to a = r /\ relative_to b = r /\
      alike_buffered_producer true (decoder (decode r) P1) (decoder (decode r) P2) (rel_inner a) (rel_inner b)); [..|repeat split; exact HD]; clear s1 s2 HD.
    - intros [a ra] [b rb] (E1 & E2 & H). cbn in E1, E2, H. subst. cbn. unfold on_inner. cbn. eapply both_bind; [apply (alike_bp_produce H)|].
      intros [x rx] [y ry] [E1 H1]. cbn in *. subst. split; [reflexivity|]. intros i Hi. repeat split. eauto.
    - intros [a ra] [b rb] Hsl (E1 & E2 & H). cbn in E1, E2, H. subst. cbn. unfold on_inner. cbn. eapply both_bind; [apply (alike_bp_slurp eq_refl H)|].
      intros [x rx] [y ry] [E1 H1]. cbn in *. subst. split; [reflexivity|]. intros Hi. repeat split. eauto.
  Qed.
End RelativeDecoder.

Lemma endian_encode_uniform : forall w, uniform_encode (endian_encode w).
Proof.
  intros w S1 S2 F E C1 C2 R HR v s1 s2 H. unfold endian_encode, bulk_consume_full_slice.
  eapply both_bind with (Q := linked R).
  - generalize (Datatypes.S (length (to_bytes w v))) as fuel. intros fuel. generalize 0 as i, (to_bytes w v) as buf. revert s1 s2 H.
    induction fuel as [|fuel IH]; intros s1 s2 H i buf; cbn [bulk_consume_full_slice_loop]; [exact Logic.I|].
    destruct (i <? length buf); [|split; cbn; auto]. apply both_same. intros rest. eapply both_bind; [apply (rel_bulk_consume HR); exact H|].
    intros [a r1] [b r2] [H1 H2]. cbn [fst snd] in *. subst. destruct r2 as [n|e]; [apply IH, H1|split; cbn; auto].
  - intros [a r1] [b r2] [H1 H2]. cbn [fst snd] in *. subst. split; cbn; auto.
Qed.
Lemma endian_decode_uniform : forall w, uniform_decode (endian_decode w).
Proof.
  intros w S1 S2 F E P1 P2 R HR s1 s2 H. unfold endian_decode, bulk_overwrite_full_slice. set (bytes := repeat x00 _).
  eapply both_bind with (Q := linked R).
  - generalize (Datatypes.S (length bytes)) as fuel. intros fuel. generalize 0 as i, bytes as buf. revert s1 s2 H.
    induction fuel as [|fuel IH]; intros s1 s2 H i buf; cbn [bulk_overwrite_full_slice_loop]; [exact Logic.I|].
    destruct (i <? length buf); [|split; cbn; auto]. apply both_same. intros rest. eapply both_bind; [apply (rel_bulk_produce HR); exact H|].
    intros [a [b1 r1]] [b [b2 r2]] [H1 H2]. cbn [fst snd] in *. injection H2 as <- <-. destruct r1 as [[n|f]|e]; [apply IH, H1|split; cbn; auto..].
  - intros [a [b1 r1]] [b [b2 r2]] [H1 H2]. cbn [fst snd] in *. injection H2 as <- <-. destruct r1 as [[]|e]; split; cbn; auto.
Qed.

(** ** Laws *)

(** How to show that objects with the default bulk methods are alike. *)
Section LawIntro.
  Context {S1 S2 T F E : Type}.

  Lemma alike_p_of : forall sl (P1 : bulk_producer S1 T F E) (P2 : bulk_producer S2 T F E) (R : nat -> S1 -> S2 -> Prop),
    default_producer P1 -> default_producer P2 ->
    (forall k k' s1 s2, R k' s1 s2 -> k <= k' -> R k s1 s2) ->
    (forall k s1 s2, R k s1 s2 -> both (fun x y => snd x = snd y /\ forall i, snd x = Ok (inl i) -> R (k - 1) (fst x) (fst y)) (p_produce P1 s1) (p_produce P2 s2)) ->
    (forall k s1 s2, sl = true -> R k s1 s2 -> both (fun x y => snd x = snd y /\ (snd x = Ok tt -> R k (fst x) (fst y))) (p_slurp P1 s1) (p_slurp P2 s2)) ->
    (forall k s1 s2, R k s1 s2 -> both (fun x y => snd x = snd y /\ forall ys, snd x = Ok (inl ys) -> R (length ys) (fst x) (fst y)) (p_expose P1 s1) (p_expose P2 s2)) ->
    (forall n k s1 s2, R k s1 s2 -> n <= k -> both (fun x y => snd x = snd y /\ (snd x = Ok tt -> R (k - n) (fst x) (fst y))) (p_consider P1 n s1) (p_consider P2 n s2)) ->
    forall k s1 s2, R k s1 s2 -> alike_p sl P1 P2 k s1 s2.
  Proof.
    intros sl P1 P2 R D1 D2 Hless Hp Hl He Hc k s1 s2 H.
    apply alike_intro with (R := fun m s1 s2 => pm_over m = true \/ R (pm_shown m) s1 s2); [|now right].
    clear k s1 s2 H. intros [[|] k] s1 s2 o HI Ho; [discriminate|]. destruct HI as [HI|HI]; [discriminate|]. cbn [pm_shown] in HI. destruct o; cbn [p_do].
    - eapply both_bind; [apply (Hp _ _ _ HI)|]. intros [a [[i|f]|e]] [b r] [E1 H]; cbn [fst snd] in *; subst r; (split; [reflexivity|]); cbn; eauto.
    - eapply both_bind; [apply (Hl _ _ _ Ho HI)|]. intros [a [[]|e]] [b r] [E1 H]; cbn [fst snd] in *; subst r; (split; [reflexivity|]); cbn; eauto.
    - eapply both_bind; [apply (He _ _ _ HI)|]. intros [a [[i|f]|e]] [b r] [E1 H]; cbn [fst snd] in *; subst r; (split; [reflexivity|]); cbn; eauto.
    - assert (Hn : n <= k). { unfold p_calls, p_may in Ho. cbn [pm_over pm_shown] in Ho. destruct (n <=? k) eqn:El; [now apply Nat.leb_le|discriminate]. }
      eapply both_bind; [apply (Hc n _ _ _ HI Hn)|]. intros [a [[]|e]] [b r] [E1 H]; cbn [fst snd] in *; subst r; (split; [reflexivity|]); cbn; eauto.
    - rewrite D1, D2. unfold default_bulk_produce.
      eapply both_bind with (Q := fun x y => snd x = snd y /\ forall n, snd (snd x) = Ok (inl n) -> R 0 (fst x) (fst y)).
      + eapply both_bind; [apply (He _ _ _ HI)|]. intros [a [[ys|f]|e]] [b r] [E1 H]; cbn [fst snd] in *; subst r; [|split; [reflexivity|discriminate]..].
        eapply both_bind; [exact (Hc (Nat.min (length ys) (length buf)) _ _ _ (H _ eq_refl) (Nat.le_min_l _ _))|].
        intros [a2 [[]|e]] [b2 r] [E1 H2]; cbn [fst snd] in *; subst r; (split; [reflexivity|]); [|discriminate]. intros n _. eapply Hless; [exact (H2 eq_refl)|lia].
      + intros [a [b1 [[n|f]|e]]] [b [b2 r]] [E1 H]; cbn [fst snd] in *; injection E1 as <- <-; (split; [reflexivity|]); cbn; eauto.
  Qed.

  Lemma alike_c_of : forall (C1 : bulk_consumer S1 T F E) (C2 : bulk_consumer S2 T F E) (R : nat -> nat -> S1 -> S2 -> Prop),
    default_consumer C1 -> default_consumer C2 ->
    (forall k w k' w' s1 s2, R k' w' s1 s2 -> k <= k' -> w <= w' -> w <= k -> R k w s1 s2) ->
    (forall x k w s1 s2, R k w s1 s2 -> both (fun x y => snd x = snd y /\ (snd x = Ok tt -> R 0 0 (fst x) (fst y))) (c_consume C1 x s1) (c_consume C2 x s2)) ->
    (forall f k w s1 s2, R k w s1 s2 -> both (fun x y => snd x = snd y) (c_close C1 f s1) (c_close C2 f s2)) ->
    (forall k w s1 s2, R k w s1 s2 -> both (fun x y => snd x = snd y /\ (snd x = Ok tt -> R k w (fst x) (fst y))) (c_flush C1 s1) (c_flush C2 s2)) ->
    (forall k w s1 s2, R k w s1 s2 -> both (fun x y => snd x = snd y /\ (forall n, snd x = Ok n -> R n 0 (fst x) (fst y))) (c_expose C1 s1) (c_expose C2 s2)) ->
    (forall ys k w s1 s2, R k w s1 s2 -> R k (Nat.max w (Nat.min k (length ys))) (c_write C1 ys s1) (c_write C2 ys s2)) ->
    (forall n k w s1 s2, R k w s1 s2 -> n <= w -> both (fun x y => snd x = snd y /\ (snd x = Ok tt -> R (k - n) (w - n) (fst x) (fst y))) (c_consume_slots C1 n s1) (c_consume_slots C2 n s2)) ->
    forall k w s1 s2, R k w s1 s2 -> alike_c C1 C2 k w s1 s2.
  Proof.
    intros C1 C2 R D1 D2 Hless Hc Hd Hf He Hw Hs k w s1 s2 H.
    apply alike_intro with (R := fun m s1 s2 => cm_over m = true \/ R (cm_shown m) (cm_written m) s1 s2); [|now right].
    clear k w s1 s2 H. intros [[|] k w] s1 s2 o HI Ho; [discriminate|]. destruct HI as [HI|HI]; [discriminate|]. cbn [cm_shown cm_written] in HI. destruct o; cbn [c_do].
    - eapply both_bind; [apply (Hc x _ _ _ _ HI)|]. intros [a [[]|e]] [b r] [E1 H]; cbn [fst snd] in *; subst r; (split; [reflexivity|]); cbn; eauto.
    - eapply both_bind; [apply (Hd f _ _ _ _ HI)|]. intros [a r] [b r'] E1; cbn [fst snd] in *; subst; (split; [reflexivity|]); cbn; eauto.
    - eapply both_bind; [apply (Hf _ _ _ _ HI)|]. intros [a [[]|e]] [b r] [E1 H]; cbn [fst snd] in *; subst r; (split; [reflexivity|]); cbn; eauto.
    - eapply both_bind; [apply (He _ _ _ _ HI)|]. intros [a [i|e]] [b r] [E1 H]; cbn [fst snd] in *; subst r; (split; [reflexivity|]); cbn; eauto.
    - split; [reflexivity|]. right. exact (Hw ys _ _ _ _ HI).
    - assert (Hn : n <= w). { unfold c_may in Ho. cbn [cm_over cm_shown cm_written] in Ho. destruct (n <=? w) eqn:El; [now apply Nat.leb_le|discriminate]. }
      eapply both_bind; [apply (Hs n _ _ _ _ HI Hn)|]. intros [a [[]|e]] [b r] [E1 H]; cbn [fst snd] in *; subst r; (split; [reflexivity|]); cbn; eauto.
    - rewrite D1, D2. unfold default_bulk_consume.
      eapply both_bind with (Q := fun x y => snd x = snd y /\ forall n, snd x = Ok n -> R 0 0 (fst x) (fst y)).
      + eapply both_bind; [apply (He _ _ _ _ HI)|]. intros [a [n|e]] [b r] [E1 H]; cbn [fst snd] in *; subst r; [|split; [reflexivity|discriminate]..].
        eapply both_bind; [apply (Hs (Nat.min n (length buf)) n (Nat.min n (length buf)))|].
        * eapply Hless; [apply (Hw (firstn (Nat.min n (length buf)) buf) _ _ _ _ (H _ eq_refl))|lia| |lia]. rewrite firstn_length. lia.
        * lia.
        * intros [a2 [[]|e]] [b2 r] [E1 H2]; cbn [fst snd] in *; subst r; (split; [reflexivity|]); [|discriminate]. intros i _. eapply Hless; [exact (H2 eq_refl)|lia..].
      + intros [a [n|e]] [b r] [E1 H]; cbn [fst snd] in *; subst r; (split; [reflexivity|]); cbn; eauto.
  Qed.
End LawIntro.

Section Laws.
  Context {S T F E : Type}.

  Ltac same_call := apply both_same; cbn [fst snd bind]; intros [? ?].
  Ltac answers := repeat match goal with r : res (_ + _) _ |- _ => destruct r as [[?|?]|?] | r : res unit _ |- _ => destruct r as [[]|?] | r : res nat _ |- _ => destruct r end.

  (** The checkers. *)
  Lemma invariant_producer_law : forall sl (P : bulk_producer S T F E) s, default_producer P ->
    alike_producer sl (invariant_producer P) P (invariant_new s) s.
  Proof.
    intros sl P s D.
    apply alike_p_of with (R := fun k a b => inv_inner a = b /\ inv_active a = true /\ k <= inv_exposed a); [intros ? ?; reflexivity|exact D|..|cbn; auto]; clear s.
    - intros k k' s1 s2 (H1 & H2 & H3) Hk. repeat split; auto; lia.
    - intros k [i act ex] s2 (H1 & H2 & H3). cbn in H1, H2, H3. subst. cbn. unfold invariant_produce, inv_check. cbn. destruct (p_produce P s2) as [[j r]| |]; cbn; auto.
      split; [reflexivity|]. intros x ->. cbn. repeat split; lia.
    - intros k [i act ex] s2 Hsl (H1 & H2 & H3). cbn in H1, H2, H3. subst. cbn. unfold invariant_slurp, inv_check. cbn. destruct (p_slurp P s2) as [[j r]| |]; cbn; auto.
      split; [reflexivity|]. intros ->. cbn. repeat split; lia.
    - intros k [i act ex] s2 (H1 & H2 & H3). cbn in H1, H2, H3. subst. cbn. unfold invariant_expose, inv_check. cbn. destruct (p_expose P s2) as [[j r]| |]; cbn; auto.
      destruct r as [[ys|f]|e]; cbn; (split; [reflexivity|]); intros zs Hz; try discriminate. injection Hz as <-. auto.
    - intros n k [i act ex] s2 (H1 & H2 & H3) Hn. cbn in H1, H2, H3. subst. cbn. unfold invariant_consider, inv_check. cbn [inv_active inv_exposed inv_inner].
      replace (ex <? n) with false by (symmetry; apply Nat.ltb_ge; lia). rewrite csub_ok by lia. cbn [bind]. destruct (p_consider P n s2) as [[j r]| |]; cbn; auto.
      split; [reflexivity|]. intros _. repeat split; lia.
  Qed.
  Lemma invariant_consumer_law : forall (C : bulk_consumer S T F E) s, default_consumer C ->
    alike_consumer (invariant_consumer C) C (invariant_new s) s.
  Proof.
    intros C s D.
    apply alike_c_of with (R := fun k w a b => inv_inner a = b /\ inv_active a = true /\ k <= inv_exposed a /\ w <= k); [intros ? ?; reflexivity|exact D|..|cbn; auto]; clear s.
    - intros k w k' w' s1 s2 (H1 & H2 & H3 & H4) Hk Hw Hkw. repeat split; auto; lia.
    - intros x k w [i act ex] s2 (H1 & H2 & H3 & H4). cbn in H1, H2, H3. subst. cbn. unfold invariant_consume, inv_check. cbn. destruct (c_consume C x s2) as [[j r]| |]; cbn; auto.
      split; [reflexivity|]. intros ->. cbn. repeat split; lia.
    - intros f k w [i act ex] s2 (H1 & H2 & H3 & H4). cbn in H1, H2, H3. subst. cbn. unfold invariant_close, inv_check. cbn. destruct (c_close C f s2) as [[j r]| |]; cbn; auto.
    - intros k w [i act ex] s2 (H1 & H2 & H3 & H4). cbn in H1, H2, H3. subst. cbn. unfold invariant_flush, inv_check. cbn. destruct (c_flush C s2) as [[j r]| |]; cbn; auto.
      split; [reflexivity|]. intros ->. cbn. repeat split; lia.
    - intros k w [i act ex] s2 (H1 & H2 & H3 & H4). cbn in H1, H2, H3. subst. cbn. unfold invariant_expose_slots, inv_check. cbn. destruct (c_expose C s2) as [[j r]| |]; cbn; auto.
      destruct r as [n|e]; cbn; (split; [reflexivity|]); intros m Hm; try discriminate. injection Hm as <-. repeat split; lia.
    - intros ys k w [i act ex] s2 (H1 & H2 & H3 & H4). cbn in H1, H2, H3. subst. cbn -[Nat.min Nat.max]. repeat split; lia.
    - intros n k w [i act ex] s2 (H1 & H2 & H3 & H4) Hn. cbn in H1, H2, H3. subst. cbn. unfold invariant_consume_slots, inv_check. cbn [inv_active inv_exposed inv_inner].
      replace (ex <? n) with false by (symmetry; apply Nat.ltb_ge; lia). rewrite csub_ok by lia. cbn [bind]. destruct (c_consume_slots C n s2) as [[j r]| |]; cbn; auto.
      split; [reflexivity|]. intros _. repeat split; lia.
  Qed.

  Lemma noop_producer_law : forall sl (P : bulk_producer S T F E) s, default_producer P -> alike_producer sl (invariant_noop_producer P) P s s.
  Proof.
    intros sl P s D. apply alike_same with (good := fun _ => True); [|exact Logic.I]. intros m o s0 _ _. split; [|auto].
    destruct o; try reflexivity. cbn [p_do]. rewrite D. reflexivity.
  Qed.
  Lemma noop_consumer_law : forall (C : bulk_consumer S T F E) s, default_consumer C -> alike_consumer (invariant_noop_consumer C) C s s.
  Proof.
    intros C s D. apply alike_same with (good := fun _ => True); [|exact Logic.I]. intros m o s0 _ _. split; [|auto].
    destruct o; try reflexivity. cbn [c_do]. rewrite D. reflexivity.
  Qed.

  (** MapFinal. *)
  Lemma map_final_id_law : forall sl (P : bulk_producer S T F E) s, default_producer P ->
    alike_producer sl (map_final_producer P) P (with_fun_new s (fun f : F => f)) s.
  Proof.
    intros sl P s D.
    apply alike_p_of with (R := fun k a b => wf_inner a = b /\ wf_fun a = Some (fun f => f)); [intros ? ?; reflexivity|exact D|..|cbn; auto]; clear s.
    - intros k k' s1 s2 H _. exact H.
    - intros k [i g] s2 (H1 & H2). cbn in H1, H2. subst. cbn. unfold map_final_produce. cbn. destruct (p_produce P s2) as [[j [[x|f]|e]]| |]; cbn; auto.
      split; [reflexivity|discriminate].
    - intros k [i g] s2 _ (H1 & H2). cbn in H1, H2. subst. cbn. unfold map_final_slurp. cbn. destruct (p_slurp P s2) as [[j r]| |]; cbn; auto.
    - intros k [i g] s2 (H1 & H2). cbn in H1, H2. subst. cbn. unfold map_final_expose. cbn. destruct (p_expose P s2) as [[j [[x|f]|e]]| |]; cbn; auto.
      split; [reflexivity|discriminate].
    - intros n k [i g] s2 (H1 & H2) _. cbn in H1, H2. subst. cbn. unfold map_final_consider. cbn. destruct (p_consider P n s2) as [[j r]| |]; cbn; auto.
  Qed.
  Lemma map_final_id_consumer_law : forall (C : bulk_consumer S T F E) s, default_consumer C ->
    alike_consumer (map_final_consumer C) C (with_fun_new s (fun f : F => f)) s.
  Proof.
    intros C s D.
    apply alike_c_of with (R := fun k w a b => wf_inner a = b /\ wf_fun a = Some (fun f => f)); [intros ? ?; reflexivity|exact D|..|cbn; auto]; clear s.
    - intros k w k' w' s1 s2 H _ _ _. exact H.
    - intros x k w [i g] s2 (H1 & H2). cbn in H1, H2. subst. cbn. unfold map_final_consume. cbn. destruct (c_consume C x s2) as [[j r]| |]; cbn; auto.
    - intros f k w [i g] s2 (H1 & H2). cbn in H1, H2. subst. cbn. unfold map_final_close. cbn. destruct (c_close C f s2) as [[j r]| |]; cbn; auto.
    - intros k w [i g] s2 (H1 & H2). cbn in H1, H2. subst. cbn. unfold map_final_flush. cbn. destruct (c_flush C s2) as [[j r]| |]; cbn; auto.
    - intros k w [i g] s2 (H1 & H2). cbn in H1, H2. subst. cbn. unfold map_final_expose_slots. cbn. destruct (c_expose C s2) as [[j r]| |]; cbn; auto.
    - intros ys k w [i g] s2 (H1 & H2). cbn in H1, H2. subst. cbn. auto.
    - intros n k w [i g] s2 (H1 & H2) _. cbn in H1, H2. subst. cbn. unfold map_final_consume_slots. cbn. destruct (c_consume_slots C n s2) as [[j r]| |]; cbn; auto.
  Qed.

  Lemma map_final_map_final_law : forall B D sl (P : bulk_producer S T F E) s (g : F -> B) (h : B -> D),
    alike_producer sl (map_final_producer (map_final_producer P)) (map_final_producer P) (with_fun_new (with_fun_new s g) h) (with_fun_new s (fun f => h (g f))).
  Proof.
    intros B D sl P s g h.
    apply alike_p_of with (R := fun k a b => a = with_fun_new (with_fun_new (wf_inner b) g) h /\ b = with_fun_new (wf_inner b) (fun f => h (g f)));
      [intros ? ?; reflexivity|intros ? ?; reflexivity|..|cbn; auto]; clear s; intros.
    - assumption.
    - destruct H as [-> H]. rewrite H at 2. cbn. unfold map_final_produce at 1. cbn. unfold map_final_produce. cbn. destruct (p_produce P (wf_inner s2)) as [[j [[x|f]|e]]| |]; cbn; auto.
      split; [reflexivity|discriminate].
    - destruct H0 as [-> H0]. rewrite H0 at 2. cbn. unfold map_final_slurp. cbn. unfold map_final_slurp. cbn. destruct (p_slurp P (wf_inner s2)) as [[j r]| |]; cbn; auto.
    - destruct H as [-> H]. rewrite H at 2. cbn. unfold map_final_expose at 1. cbn. unfold map_final_expose. cbn. destruct (p_expose P (wf_inner s2)) as [[j [[x|f]|e]]| |]; cbn; auto.
      split; [reflexivity|discriminate].
    - destruct H as [-> H]. rewrite H at 2. cbn. unfold map_final_consider. cbn. unfold map_final_consider. cbn. destruct (p_consider P n (wf_inner s2)) as [[j r]| |]; cbn; auto.
  Qed.

  (** Limit. *)
  Lemma limit_map_final_law : forall B sl (P : bulk_producer S T F E) s n (g : F -> B),
    alike_producer sl (limit_producer (map_final_producer P)) (map_final_producer (limit_producer P))
      (limit_new (with_fun_new s g) n) (with_fun_new (limit_new s n) (option_map g)).
  Proof.
    intros B sl P s n g.
    apply alike_p_of with (R := fun k a b => k <= lim_remaining a /\ a = mk_limit (with_fun_new (lim_inner (wf_inner b)) g) (lim_remaining a) /\
        b = with_fun_new (mk_limit (lim_inner (wf_inner b)) (lim_remaining a)) (option_map g));
      [intros ? ?; reflexivity|intros ? ?; reflexivity|..|cbn; repeat split; lia]; clear s n.
    - intros k k' s1 s2 (H1 & H2 & H3) Hk. repeat split; auto; lia.
    - intros k [[i1 g1] r1] [[i2 r2] g2] (H1 & H2 & H3). cbn in H1, H2, H3. injection H2 as -> ->. injection H3 as -> ->.
      cbn. unfold limit_produce, map_final_produce. cbn. unfold limit_produce, map_final_produce. cbn. destruct r1 as [|r1]; cbn; [split; [reflexivity|discriminate]|].
      destruct (p_produce P i2) as [[j [[x|f]|e]]| |]; cbn; auto; (split; [reflexivity|]); try discriminate. intros y _. repeat split; lia.
    - intros k [[i1 g1] r1] [[i2 r2] g2] _ (H1 & H2 & H3). cbn in H1, H2, H3. injection H2 as -> ->. injection H3 as -> ->.
      cbn. unfold limit_slurp, map_final_slurp. cbn. unfold limit_slurp, map_final_slurp. cbn. destruct (p_slurp P i2) as [[j r]| |]; cbn; auto.
    - intros k [[i1 g1] r1] [[i2 r2] g2] (H1 & H2 & H3). cbn in H1, H2, H3. injection H2 as -> ->. injection H3 as -> ->.
      cbn -[Nat.eqb Nat.min]. unfold limit_expose, map_final_expose. cbn -[Nat.eqb Nat.min]. unfold limit_expose, map_final_expose. cbn -[Nat.eqb Nat.min].
      destruct (r1 =? 0); [cbn; split; [reflexivity|discriminate]|]. destruct (p_expose P i2) as [[j [[ys|f]|e]]| |]; cbn -[slice_to Nat.min]; auto; try (split; [reflexivity|discriminate]).
      rewrite slice_to_ok by lia. cbn -[firstn Nat.min]. split; [reflexivity|]. intros zs Hz. injection Hz as <-. rewrite firstn_length. repeat split; lia.
    - intros n k [[i1 g1] r1] [[i2 r2] g2] (H1 & H2 & H3) Hn. cbn in H1, H2, H3. injection H2 as -> ->. injection H3 as -> ->.
      cbn. unfold limit_consider, map_final_consider. cbn. unfold limit_consider, map_final_consider. cbn. rewrite csub_ok by lia. cbn. destruct (p_consider P n i2) as [[j r]| |]; cbn; auto.
      split; [reflexivity|]. intros _. repeat split; lia.
  Qed.

  Lemma limit_map_final_consumer_law : forall B (C : bulk_consumer S T F E) s n (g : B -> F),
    alike_consumer (limit_consumer (map_final_consumer C)) (map_final_consumer (limit_consumer C))
      (limit_new (with_fun_new s g) n) (with_fun_new (limit_new s n) g).
  Proof.
    intros B C s n g.
    apply alike_c_of with (R := fun k w a b => k <= lim_remaining a /\ w <= k /\ a = mk_limit (with_fun_new (lim_inner (wf_inner b)) g) (lim_remaining a) /\
        b = with_fun_new (mk_limit (lim_inner (wf_inner b)) (lim_remaining a)) g);
      [intros ? ?; reflexivity|intros ? ?; reflexivity|..|cbn; repeat split; lia]; clear s n.
    - intros k w k' w' s1 s2 (H1 & H2 & H3 & H4) Hk Hw Hkw. repeat split; auto; lia.
    - intros x k w [[i1 g1] r1] [[i2 r2] g2] (H1 & H0 & H2 & H3). cbn in H1, H2, H3. injection H2 as -> ->. injection H3 as -> ->.
      cbn. unfold limit_consume, map_final_consume. cbn. unfold limit_consume, map_final_consume. cbn. destruct r1 as [|r1]; cbn; [split; [reflexivity|discriminate]|].
      destruct (c_consume C x i2) as [[j [[]|e]]| |]; cbn; auto; (split; [reflexivity|]); try discriminate. intros _. repeat split; lia.
    - intros f k w [[i1 g1] r1] [[i2 r2] g2] (H1 & H0 & H2 & H3). cbn in H1, H2, H3. injection H2 as -> ->. injection H3 as -> ->.
      cbn. unfold limit_close, map_final_close. cbn. unfold limit_close, map_final_close. cbn. destruct (c_close C (g f) i2) as [[j r]| |]; cbn; auto.
    - intros k w [[i1 g1] r1] [[i2 r2] g2] (H1 & H0 & H2 & H3). cbn in H1, H2, H3. injection H2 as -> ->. injection H3 as -> ->.
      cbn. unfold limit_flush, map_final_flush. cbn. unfold limit_flush, map_final_flush. cbn. destruct (c_flush C i2) as [[j r]| |]; cbn; auto.
    - intros k w [[i1 g1] r1] [[i2 r2] g2] (H1 & H0 & H2 & H3). cbn in H1, H2, H3. injection H2 as -> ->. injection H3 as -> ->.
      cbn -[Nat.eqb Nat.min]. unfold limit_expose_slots, map_final_expose_slots. cbn -[Nat.eqb Nat.min]. unfold limit_expose_slots, map_final_expose_slots. cbn -[Nat.eqb Nat.min].
      destruct (r1 =? 0); [cbn; split; [reflexivity|discriminate]|]. destruct (c_expose C i2) as [[j [m|e]]| |]; cbn -[Nat.min]; auto; try (split; [reflexivity|discriminate]).
      split; [reflexivity|]. intros q Hq. injection Hq as <-. repeat split; lia.
    - intros ys k w [[i1 g1] r1] [[i2 r2] g2] (H1 & H0 & H2 & H3). cbn in H1, H2, H3. injection H2 as -> ->. injection H3 as -> ->. cbn -[Nat.min Nat.max]. repeat split; lia.
    - intros n k w [[i1 g1] r1] [[i2 r2] g2] (H1 & H0 & H2 & H3) Hn. cbn in H1, H2, H3. injection H2 as -> ->. injection H3 as -> ->.
      cbn. unfold limit_consume_slots, map_final_consume_slots. cbn. unfold limit_consume_slots, map_final_consume_slots. cbn. rewrite csub_ok by lia. cbn. destruct (c_consume_slots C n i2) as [[j r]| |]; cbn; auto.
      split; [reflexivity|]. intros _. repeat split; lia.
  Qed.

  (** A limit of a limit. *)
  Lemma limit_limit_law : forall sl (P : bulk_producer S T F E) s n m,
    alike_producer sl (map_final_producer (limit_producer (limit_producer P))) (limit_producer P)
      (with_fun_new (limit_new (limit_new s m) n) either_limit) (limit_new s (Nat.min n m)).
  Proof.
    intros sl P s n m.
    apply alike_p_of with (R := fun k a b => exists n m, k <= n /\ k <= m /\ a = with_fun_new (limit_new (limit_new (lim_inner b) m) n) either_limit /\
        b = limit_new (lim_inner b) (Nat.min n m));
      [intros ? ?; reflexivity|intros ? ?; reflexivity|..|exists n, m; cbn; repeat split; lia]; clear s n m.
    - intros k k' s1 s2 (n & m & H1 & H2 & H3 & H4) Hk. exists n, m. repeat split; auto; lia.
    - intros k s1 [i r] (n & m & H1 & H2 & -> & H4). cbn [lim_inner] in *. injection H4 as ->. cbn -[Nat.min]. unfold map_final_produce, limit_produce. cbn -[Nat.min].
      unfold limit_produce. cbn -[Nat.min]. destruct n as [|n]; [cbn; split; [reflexivity|discriminate]|]. cbn -[Nat.min].
      destruct m as [|m]; [cbn; split; [reflexivity|discriminate]|]. cbn [Nat.min lim_remaining bind].
      destruct (p_produce P i) as [[j [[x|f]|e]]| |]; cbn -[Nat.min]; auto; try (split; [reflexivity|discriminate]).
      split; [reflexivity|]. intros y _. exists n, m. repeat split; lia.
    - intros k s1 [i r] _ (n & m & H1 & H2 & -> & H4). cbn [lim_inner] in *. injection H4 as ->. cbn -[Nat.min]. unfold map_final_slurp, limit_slurp. cbn -[Nat.min].
      unfold limit_slurp. cbn -[Nat.min]. destruct (p_slurp P i) as [[j r]| |]; cbn -[Nat.min]; auto. split; [reflexivity|]. intros _. exists n, m. repeat split; lia.
    - intros k s1 [i r] (n & m & H1 & H2 & -> & H4). cbn [lim_inner] in *. injection H4 as ->.
      cbn -[Nat.min Nat.eqb]. unfold map_final_expose. cbn -[Nat.min Nat.eqb]. unfold limit_expose. cbn -[Nat.min Nat.eqb]. unfold limit_expose. cbn -[Nat.min Nat.eqb].
      destruct n as [|n]; [cbn; split; [reflexivity|discriminate]|]. destruct m as [|m]; [cbn; split; [reflexivity|discriminate]|].
      change (Datatypes.S n =? 0) with false. change (Datatypes.S m =? 0) with false. replace (Nat.min (Datatypes.S n) (Datatypes.S m) =? 0) with false by (symmetry; apply Nat.eqb_neq; lia).
      remember (Datatypes.S n) as n1 eqn:En. remember (Datatypes.S m) as m1 eqn:Em.
      destruct (p_expose P i) as [[j [[ys|f]|e]]| |]; cbn -[Nat.min slice_to]; auto; try (split; [reflexivity|discriminate]).
      rewrite slice_to_ok by lia. cbn -[Nat.min slice_to firstn]. rewrite slice_to_ok by lia. rewrite slice_to_ok by lia. cbn -[Nat.min firstn].
      rewrite firstn_firstn, firstn_length. split.
      + do 3 f_equal. lia.
      + intros zs Hz. injection Hz as <-. rewrite !firstn_length. exists n1, m1. repeat split; lia.
    - intros a k s1 [i r] (n & m & H1 & H2 & -> & H4) Ha. cbn [lim_inner] in *. injection H4 as ->. cbn -[Nat.min]. unfold map_final_consider, limit_consider. cbn -[Nat.min].
      unfold limit_consider. cbn -[Nat.min]. rewrite !csub_ok by lia. cbn -[Nat.min]. unfold limit_consider, limit_new. cbn -[Nat.min]. rewrite !csub_ok by lia. cbn -[Nat.min].
      destruct (p_consider P a i) as [[j r]| |]; cbn -[Nat.min]; auto.
      split; [reflexivity|]. intros _. exists (n - a), (m - a). unfold with_fun_new, limit_new. repeat split; try lia. f_equal. lia.
  Qed.
End Laws.

Section MoreLaws.
  Context {S T F E : Type}.

  Lemma map_final_map_final_consumer_law : forall B D (C : bulk_consumer S T F E) s (g : B -> F) (h : D -> B),
    alike_consumer (map_final_consumer (map_final_consumer C)) (map_final_consumer C) (with_fun_new (with_fun_new s g) h) (with_fun_new s (fun d => g (h d))).
  Proof.
    intros B D C s g h.
    apply alike_c_of with (R := fun k w a b => exists j, a = with_fun_new (with_fun_new j g) h /\ b = with_fun_new j (fun d => g (h d)));
      [intros ? ?; reflexivity|intros ? ?; reflexivity|..|eauto]; clear s; intros.
    - assumption.
    - destruct H as (i & -> & ->). cbn. unfold map_final_consume. cbn. unfold map_final_consume. cbn. destruct (c_consume C x i) as [[j r]| |]; cbn; unfold with_fun_new; eauto 6.
    - destruct H as (i & -> & ->). cbn. unfold map_final_close. cbn. unfold map_final_close. cbn. destruct (c_close C (g (h f)) i) as [[j r]| |]; cbn; unfold with_fun_new; eauto 6.
    - destruct H as (i & -> & ->). cbn. unfold map_final_flush. cbn. unfold map_final_flush. cbn. destruct (c_flush C i) as [[j r]| |]; cbn; unfold with_fun_new; eauto 6.
    - destruct H as (i & -> & ->). cbn. unfold map_final_expose_slots. cbn. unfold map_final_expose_slots. cbn. destruct (c_expose C i) as [[j r]| |]; cbn; unfold with_fun_new; eauto 6.
    - destruct H as (i & -> & ->). exists (c_write C ys i). split; reflexivity.
    - destruct H as (i & -> & ->). cbn. unfold map_final_consume_slots. cbn. unfold map_final_consume_slots. cbn. destruct (c_consume_slots C n i) as [[j r]| |]; cbn; unfold with_fun_new; eauto 6.
  Qed.

  Lemma map_item_map_item_law : forall U V W X sl (P : buffered_producer S T F E) (f : W -> T -> W * U) (g : X -> U -> X * V) s w x,
    alike_buffered_producer sl (map_item_producer (map_item_producer P f) g) (map_item_producer P (after f g))
      (mk_map_item (mk_map_item s w) x) (mk_map_item s (w, x)).
  Proof.
    intros U V W X sl P f g s w x.
    apply alike_bp_intro with (R := fun a b => a = mk_map_item (mk_map_item (mi_inner b) (fst (mi_closure b))) (snd (mi_closure b))); [..|reflexivity]; clear s w x.
    - intros s1 [s [w x]] ->. cbn. unfold map_item_produce. cbn. unfold map_item_produce. cbn. destruct (p_produce P s) as [[j [[y|fin]|e]]| |]; cbn; auto.
      unfold after. cbn. destruct (f w y) as [w' u]. cbn. destruct (g x u) as [x' v]. cbn. auto.
    - intros s1 [s [w x]] _ ->. cbn. unfold map_item_slurp. cbn. unfold map_item_slurp. cbn. destruct (p_slurp P s) as [[j r]| |]; cbn; auto.
  Qed.
  Lemma map_item_map_item_consumer_law : forall U V W X (C : buffered_consumer S T F E) (g : X -> U -> X * T) (f : W -> V -> W * U) s w x,
    alike_buffered_consumer (map_item_consumer (map_item_consumer C g) f) (map_item_consumer C (after f g))
      (mk_map_item (mk_map_item s x) w) (mk_map_item s (w, x)).
  Proof.
    intros U V W X C g f s w x.
    apply alike_bc_intro with (R := fun a b => a = mk_map_item (mk_map_item (mi_inner b) (snd (mi_closure b))) (fst (mi_closure b))); [..|reflexivity]; clear s w x.
    - intros y s1 [s [w x]] ->. cbn. unfold map_item_consume. cbn. unfold map_item_consume, after. cbn. destruct (f w y) as [w' u]. cbn. destruct (g x u) as [x' t]. cbn.
      destruct (c_consume C t s) as [[j r]| |]; cbn; auto.
    - intros fin s1 [s [w x]] ->. cbn. unfold map_item_close. cbn. unfold map_item_close. cbn. destruct (c_close C fin s) as [[j r]| |]; cbn; auto.
    - intros s1 [s [w x]] ->. cbn. unfold map_item_flush. cbn. unfold map_item_flush. cbn. destruct (c_flush C s) as [[j r]| |]; cbn; auto.
  Qed.
End MoreLaws.

(** Basic producers. *)
Section Basic.
  Context {T F : Type}.

  (** [k] items on display, and at least as many to come. *)
  Definition fs_ok (k : nat) (s : from_slice T) : Prop := fs_offset s + k <= length (fs_slice s).

  Lemma from_slice_rest : forall k s, fs_ok k s -> slice_from (fs_offset s) (fs_slice s) = Ret (skipn (fs_offset s) (fs_slice s)).
  Proof. intros k s H. apply slice_from_ok. unfold fs_ok in H. lia. Qed.
  Lemma from_slice_produce_eq : forall k s, fs_ok k s ->
    from_slice_produce s = match skipn (fs_offset s) (fs_slice s) with
      | [] => Ret (s, Ok (inr tt))
      | x :: _ => Ret (mk_from_slice (fs_slice s) (fs_offset s + 1), Ok (inl x))
      end.
  Proof.
    intros k [l off] H. unfold fs_ok in H. cbn [fs_offset fs_slice] in *. unfold from_slice_produce. cbn [fs_offset fs_slice].
    destruct (length l =? off) eqn:El.
    - apply Nat.eqb_eq in El. rewrite skipn_all2 by lia. reflexivity.
    - apply Nat.eqb_neq in El. destruct (skipn off l) as [|x r] eqn:Es.
      + apply (f_equal (@length _)) in Es. rewrite skipn_length in Es. cbn in Es. lia.
      + unfold index. assert (Hn : nth_error l off = Some x). { rewrite <- (firstn_skipn off l), Es, nth_error_app2; rewrite firstn_length, Nat.min_l by lia; [|lia]. now rewrite Nat.sub_diag. }
        rewrite Hn. reflexivity.
  Qed.
  Lemma skipn_ok : forall k s, fs_ok k s -> k <= length (skipn (fs_offset s) (fs_slice s)).
  Proof. intros k s H. rewrite skipn_length. unfold fs_ok in H. lia. Qed.

  (** A TestProducer without sizes is a slice followed by the given final value. *)
  Lemma test_producer_law : forall sl (items : list T) (f : F),
    alike_producer sl (@test_producer T F infallible) (map_final_producer from_slice_producer)
      (test_producer_build items (Ok f) None None) (with_fun_new (from_slice_new items) (fun _ => f)).
  Proof.
    intros sl items f.
    apply alike_p_of with (R := fun k a b => fs_ok k (tp_inner a) /\ a = mk_tp (tp_inner a) (Some (Ok f)) None None /\ b = with_fun_new (tp_inner a) (fun _ => f));
      [intros ? ?; reflexivity|intros ? ?; reflexivity|..|unfold fs_ok; cbn; repeat split; lia].
    - intros k k' s1 s2 (H & H1) Hk. split; [unfold fs_ok in *; lia|exact H1].
    - intros k [s l sz y] s2 (H & H1 & ->). cbn in H. injection H1 as -> -> ->. cbn. unfold test_producer_produce, map_final_produce, tp_maybe_yield. cbn.
      unfold from_slice_not_yet_produced. rewrite (from_slice_rest H). rewrite (from_slice_produce_eq H). cbn.
      destruct (skipn (fs_offset s) (fs_slice s)) as [|x r] eqn:Es; cbn; [split; [reflexivity|discriminate]|].
      split; [reflexivity|]. intros i _. repeat split. apply (f_equal (@length _)) in Es. rewrite skipn_length in Es. unfold fs_ok in *. cbn in *. lia.
    - intros k [s l sz y] s2 _ (H & H1 & ->). cbn in H. injection H1 as -> -> ->. cbn. unfold test_producer_slurp, map_final_slurp, tp_maybe_yield, tp_check_error. cbn.
      unfold from_slice_not_yet_produced. rewrite (from_slice_rest H). cbn. destruct (skipn (fs_offset s) (fs_slice s)); cbn; auto.
    - intros k [s l sz y] s2 (H & H1 & ->). cbn in H. injection H1 as -> -> ->. cbn. unfold test_producer_expose, map_final_expose, tp_maybe_yield. cbn.
      unfold from_slice_not_yet_produced, from_slice_expose. rewrite (from_slice_rest H). cbn.
      destruct (skipn (fs_offset s) (fs_slice s)) as [|x r] eqn:Es; cbn; [split; [reflexivity|discriminate]|].
      split; [reflexivity|]. intros zs Hz. injection Hz as <-. repeat split. apply (f_equal (@length _)) in Es. rewrite skipn_length in Es. unfold fs_ok in *. cbn in *. lia.
    - intros n k [s l sz y] s2 (H & H1 & ->) Hn. cbn in H. injection H1 as -> -> ->. cbn. unfold test_producer_consider, map_final_consider, tp_maybe_yield, tp_check_error. cbn.
      unfold from_slice_not_yet_produced. rewrite (from_slice_rest H). cbn.
      destruct (skipn (fs_offset s) (fs_slice s)) as [|x r] eqn:Es; cbn; (split; [reflexivity|]); intros _; repeat split; unfold fs_ok in *; cbn in *; lia.
  Qed.

  (** An empty slice is Empty. *)
  Lemma empty_law : forall sl (f : F),
    alike_producer sl (@empty_producer T F infallible) (map_final_producer from_slice_producer) (empty_new f) (with_fun_new (from_slice_new []) (fun _ => f)).
  Proof.
    intros sl f.
    apply alike_p_of with (R := fun k a b => k = 0 /\ a = Some f /\ b = with_fun_new (from_slice_new []) (fun _ => f));
      [intros ? ?; reflexivity|intros ? ?; reflexivity|..|auto].
    - intros k k' s1 s2 (H & H1) Hk. split; [lia|exact H1].
    - intros k s1 s2 (H & -> & ->). cbn. split; [reflexivity|discriminate].
    - intros k s1 s2 _ (H & -> & ->). cbn. auto.
    - intros k s1 s2 (H & -> & ->). cbn. split; [reflexivity|discriminate].
    - intros n k s1 s2 (H & -> & ->) Hn. assert (n = 0) by lia. subst. cbn. auto.
  Qed.

  (** Limiting a slice is cutting it off; the final value tells which came first. *)
  Lemma limit_from_slice_law : forall sl (l : list T) n,
    alike_producer sl (limit_producer from_slice_producer) (map_final_producer from_slice_producer)
      (limit_new (from_slice_new l) n) (with_fun_new (from_slice_new (firstn n l)) (fun u : unit => if n <=? length l then None else Some u)).
  Proof.
    intros sl l n.
    apply alike_p_of with (R := fun k a b => exists off, off + k <= Nat.min n (length l) /\ a = limit_new (mk_from_slice l off) (n - off) /\
        b = with_fun_new (mk_from_slice (firstn n l) off) (fun u : unit => if n <=? length l then None else Some u));
      [intros ? ?; reflexivity|intros ? ?; reflexivity|..|exists 0; cbn; repeat split; [lia|now rewrite Nat.sub_0_r]].
    - intros k k' s1 s2 (off & H & H1) Hk. exists off. split; [lia|exact H1].
    - intros k s1 s2 (off & H & -> & ->). cbn -[from_slice_produce from_slice_expose Nat.min Nat.leb Nat.sub Nat.eqb Nat.add firstn skipn slice_from slice_to limit_new with_fun_new csub]. unfold limit_produce, map_final_produce.
      cbn -[from_slice_produce from_slice_expose Nat.min Nat.leb Nat.sub Nat.eqb Nat.add firstn skipn slice_from slice_to limit_new with_fun_new csub]. cbn [lim_remaining lim_inner limit_new wf_inner wf_fun with_fun_new].
      rewrite (@from_slice_produce_eq k (mk_from_slice (firstn n l) off)) by (unfold fs_ok; cbn [fs_offset fs_slice]; rewrite firstn_length; lia).
      rewrite (@from_slice_produce_eq k (mk_from_slice l off)) by (unfold fs_ok; cbn [fs_offset fs_slice]; lia). cbn [fs_offset fs_slice].
      rewrite skipn_firstn_comm. destruct (n - off) as [|r] eqn:Er.
      + cbn [firstn bind map_final_result expect wf_fun wf_inner]. replace (n <=? length l) with true by (symmetry; apply Nat.leb_le; lia). split; [reflexivity|discriminate].
      + destruct (skipn off l) as [|x ys] eqn:Es; cbn [firstn bind map_final_result expect wf_fun wf_inner]; apply (f_equal (@length _)) in Es; rewrite skipn_length in Es; cbn in Es.
        * replace (n <=? length l) with false by (symmetry; apply Nat.leb_gt; lia). split; [reflexivity|discriminate].
        * split; [reflexivity|]. intros i _. exists (off + 1). cbn [fst]. repeat split; [lia|]. unfold limit_new. f_equal. lia.
    - intros k s1 s2 _ (off & H & -> & ->). cbn. split; [reflexivity|]. intros _. exists off. auto.
    - intros k s1 s2 (off & H & -> & ->). cbn -[from_slice_produce from_slice_expose Nat.min Nat.leb Nat.sub Nat.eqb Nat.add firstn skipn slice_from slice_to limit_new with_fun_new csub]. unfold limit_expose, map_final_expose.
      cbn -[from_slice_produce from_slice_expose Nat.min Nat.leb Nat.sub Nat.eqb Nat.add firstn skipn slice_from slice_to limit_new with_fun_new csub]. cbn [lim_remaining lim_inner limit_new wf_inner wf_fun with_fun_new]. unfold from_slice_expose. cbn [fs_offset fs_slice].
      rewrite (@slice_from_ok _ off (firstn n l)) by (rewrite firstn_length; lia). rewrite (@slice_from_ok _ off l) by lia. cbn [bind]. rewrite skipn_firstn_comm.
      destruct (n - off =? 0) eqn:E0.
      + apply Nat.eqb_eq in E0. rewrite E0. cbn [firstn bind map_final_result expect wf_fun wf_inner]. replace (n <=? length l) with true by (symmetry; apply Nat.leb_le; lia).
        split; [reflexivity|discriminate].
      + apply Nat.eqb_neq in E0. assert (El : length (skipn off l) = length l - off) by apply skipn_length. destruct (skipn off l) as [|x ys] eqn:Es.
        * rewrite firstn_nil. cbn [bind map_final_result expect wf_fun wf_inner]. cbn in El. replace (n <=? length l) with false by (symmetry; apply Nat.leb_gt; lia).
          split; [reflexivity|discriminate].
        * cbn [bind]. rewrite slice_to_ok by lia. cbn [bind]. assert (Hp : 0 < length (skipn off l)) by (rewrite Es; cbn; lia). rewrite <- Es in *. clear Es. replace (firstn (Nat.min (n - off) (length (skipn off l))) (skipn off l)) with (firstn (n - off) (skipn off l)).
          2: { destruct (Nat.le_ge_cases (n - off) (length (skipn off l))); [now rewrite Nat.min_l by lia|]. rewrite Nat.min_r by lia. now rewrite !firstn_all2 by lia. }
          destruct (firstn (n - off) (skipn off l)) as [|z zs] eqn:Ez.
          { apply (f_equal (@length _)) in Ez. rewrite firstn_length in Ez. cbn [length] in Ez. lia. }
          cbn [map_final_result]. split; [reflexivity|]. intros q Hq. injection Hq as <-. exists off. cbn [fst]. repeat split.
          apply (f_equal (@length _)) in Ez. rewrite firstn_length in Ez. lia.
    - intros a k s1 s2 (off & H & -> & ->) Ha. cbn -[from_slice_produce from_slice_expose Nat.min Nat.leb Nat.sub Nat.eqb Nat.add firstn skipn slice_from slice_to limit_new with_fun_new csub]. unfold limit_consider, map_final_consider.
      cbn -[from_slice_produce from_slice_expose Nat.min Nat.leb Nat.sub Nat.eqb Nat.add firstn skipn slice_from slice_to limit_new with_fun_new csub]. cbn [lim_remaining lim_inner limit_new wf_inner wf_fun with_fun_new]. rewrite csub_ok by lia. cbn [bind]. unfold from_slice_consider. cbn [bind fs_offset fs_slice].
      split; [reflexivity|]. intros _. exists (off + a). cbn [fst]. repeat split; [lia|]. unfold limit_new. f_equal. lia.
  Qed.
End Basic.

(** ** Towers *)

Lemma ptower_default : forall T F E G S (t : ptower T F E G) (P : bulk_producer S T F E), default_producer P -> default_producer (pt_producer P t).
Proof. intros T F E G S t P H. destruct t; [exact H|intros ? ?; reflexivity..]. Qed.
Lemma ctower_default : forall T F E G B S (t : ctower F E G B) (C : bulk_consumer S T F E), default_consumer C -> default_consumer (ct_consumer C t).
Proof. intros T F E G B S t C H. destruct t; [exact H|intros ? ?; reflexivity..]. Qed.

Lemma ptower_alike : forall T F E G S1 S2 sl (t : ptower T F E G) (P1 : bulk_producer S1 T F E) (P2 : bulk_producer S2 T F E) s1 s2, pt_slurps_well sl t ->
  alike_producer sl P1 P2 s1 s2 -> alike_producer (pt_slurps sl t) (pt_producer P1 t) (pt_producer P2 t) (pt_new s1 t) (pt_new s2 t).
Proof.
  induction t; intros P1 P2 s1 s2 Ht H; cbn in *; auto.
  - now apply limit_producer_alike, IHt.
  - now apply map_final_producer_alike, IHt.
  - now apply invariant_producer_alike, IHt.
  - destruct Ht as [Hs Ht]. eapply pscr_producer_alike; [exact Hs|]. now apply IHt.
Qed.
Lemma ctower_alike : forall T F E G B S1 S2 (t : ctower F E G B) (C1 : bulk_consumer S1 T F E) (C2 : bulk_consumer S2 T F E) s1 s2,
  alike_consumer C1 C2 s1 s2 -> alike_consumer (ct_consumer C1 t) (ct_consumer C2 t) (ct_new s1 t) (ct_new s2 t).
Proof.
  induction t; intros C1 C2 s1 s2 Hal; cbn in *; auto.
  - now apply limit_consumer_alike, IHt.
  - now apply map_final_consumer_alike, IHt.
  - now apply invariant_consumer_alike, IHt.
Qed.

Lemma pt_unchecked_slurps : forall T F E G sl (t : ptower T F E G), pt_slurps sl (pt_unchecked t) = pt_slurps sl t.
Proof. induction t; cbn; auto. Qed.

Lemma ptower_unchecked : forall T F E G S sl (t : ptower T F E G) (P : bulk_producer S T F E) s, pt_slurps_well sl t -> default_producer P ->
  alike_producer (pt_slurps sl t) (pt_producer P t) (pt_producer P (pt_unchecked t)) (pt_new s t) (pt_new s (pt_unchecked t)).
Proof.
  induction t; intros P s Ht HP; cbn in *.
  - intros ops. reflexivity.
  - now apply limit_producer_alike, IHt.
  - now apply map_final_producer_alike, IHt.
  - eapply alike_trans; [apply invariant_producer_law, ptower_default, HP|]. now apply IHt.
  - destruct Ht as [Hs Ht]. eapply pscr_producer_alike; [exact Hs|]. now apply IHt.
Qed.
Lemma ctower_unchecked : forall T F E G B S (t : ctower F E G B) (C : bulk_consumer S T F E) s, default_consumer C ->
  alike_consumer (ct_consumer C t) (ct_consumer C (ct_unchecked t)) (ct_new s t) (ct_new s (ct_unchecked t)).
Proof.
  induction t; intros C s HC; cbn in *.
  - intros ops. reflexivity.
  - now apply limit_consumer_alike, IHt.
  - now apply map_final_consumer_alike, IHt.
  - eapply alike_trans; [apply invariant_consumer_law, ctower_default, HC|]. now apply IHt.
Qed.

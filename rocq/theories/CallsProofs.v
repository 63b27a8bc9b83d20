(** Exactly which calls functions and adaptors make. *)
From Coq Require Import Bool List Arith Lia.
From Verif Require Import Prelude ListFacts Traits QueueModel AdaptorModel ScramblerModel TowerModel IoModel Contracts QueueSpec QueueProofs IoProofs AdaptorSpec CallsSpec.
Import ListNotations.
Set Implicit Arguments.

(** ** Histories *)
Section Histories.
  Context {S T F E : Type} (P : bulk_producer S T F E) (C : bulk_consumer S T F E).

  Lemma p_trace_one : forall s o s1 r, p_do P o s = Ret (s1, r) -> p_trace P s [(o, r)] s1.
  Proof. intros. econstructor; [eassumption|constructor]. Qed.
  Lemma c_trace_one : forall s o s1 r, c_do C o s = Ret (s1, r) -> c_trace C s [(o, r)] s1.
  Proof. intros. econstructor; [eassumption|constructor]. Qed.
  Lemma p_trace_app : forall h s s1 h' s2, p_trace P s h s1 -> p_trace P s1 h' s2 -> p_trace P s (h ++ h') s2.
  Proof. induction h as [|[o r] h IH]; intros s s1 h' s2 H1 H2; inversion H1; subst; [exact H2|]. econstructor; [eassumption|]. eapply IH; eassumption. Qed.
  Lemma c_trace_app : forall h s s1 h' s2, c_trace C s h s1 -> c_trace C s1 h' s2 -> c_trace C s (h ++ h') s2.
  Proof. induction h as [|[o r] h IH]; intros s s1 h' s2 H1 H2; inversion H1; subst; [exact H2|]. econstructor; [eassumption|]. eapply IH; eassumption. Qed.
End Histories.

(** Takes histories apart, from the front. *)
Ltac parts :=
  repeat match goal with
  | H : p_trace _ _ (_ :: _) _ |- _ => inversion H; subst; clear H
  | H : c_trace _ _ (_ :: _) _ |- _ => inversion H; subst; clear H
  | H : p_trace _ _ [] _ |- _ => inversion H; subst; clear H
  | H : c_trace _ _ [] _ |- _ => inversion H; subst; clear H
  | H : p_do _ _ _ = Ret _ |- _ => cbn [p_do] in H
  | H : c_do _ _ _ = Ret _ |- _ => cbn [c_do] in H
  | H : (let* _ := ?o in _) = Ret _ |- _ => let X := fresh "X" in destruct o as [[? ?]| |] eqn:X; cbn [bind] in H; try discriminate H
  | H : Ret _ = Ret _ |- _ => injection H; clear H; intros; subst
  | H : (?x, ?y) = (?x', ?y') |- _ => injection H; clear H; intros; subst
  | H : PAItem _ = PAItem _ |- _ => injection H; clear H; intros; subst
  | H : PAUnit _ = PAUnit _ |- _ => injection H; clear H; intros; subst
  | H : PASlice _ = PASlice _ |- _ => injection H; clear H; intros; subst
  | H : PABuf _ _ = PABuf _ _ |- _ => injection H; clear H; intros; subst
  | H : CAUnit _ = CAUnit _ |- _ => injection H; clear H; intros; subst
  | H : CASlots _ = CASlots _ |- _ => injection H; clear H; intros; subst
  | H : CANat _ = CANat _ |- _ => injection H; clear H; intros; subst
  | p : _ * _ |- _ => destruct p
  end.
(** Puts a history together from known calls. *)
Ltac called := cbn [p_do c_do offered room_after option_map]; repeat match goal with H : ?o = Ret _ |- context [?o] => rewrite H end; cbn [bind]; reflexivity.
Ltac run := cbn [bind]; repeat (match goal with H : ?o = Ret _ |- context [?o] => rewrite H end; cbn [bind]); try reflexivity.
Ltac history := cbn [app p_rounds c_rounds flat_map]; repeat first [apply p_trace_nil | apply c_trace_nil | eapply p_trace_step; [called|] | eapply c_trace_step; [called|] | eassumption].

(** ** Pipes *)
Section Pipes.
  Context {SP SC T F PE CE : Type} (P : bulk_producer SP T F PE) (C : bulk_consumer SC T F CE).

  Lemma pipe_makes : forall fuel sp sc sp' sc' r, pipe fuel P C sp sc = Ret (sp', sc', r) ->
    exists lp lc, p_trace P sp lp sp' /\ c_trace C sc lc sc' /\ pipe_calls r lp lc.
  Proof.
    induction fuel as [|fuel IH]; intros sp sc sp' sc' r H; cbn [pipe] in H; [discriminate|].
    destruct (p_produce P sp) as [[sp1 [[x|f]|e]]| |] eqn:EP; cbn [bind] in H; try discriminate.
    - destruct (c_consume C x sc) as [[sc1 [[]|e]]| |] eqn:EC; cbn [bind] in H; try discriminate.
      + destruct (IH _ _ _ _ _ H) as (lp & lc & H1 & H2 & xs & H3).
        exists ((PProduce, PAItem (Ok (inl x))) :: lp), ((CConsume x, CAUnit (Ok tt)) :: lc). repeat split; [history|history|].
        exists (x :: xs). destruct r as [[]|[e|e]].
        * destruct H3 as (f & -> & ->). exists f. auto.
        * destruct H3 as (-> & ->). auto.
        * destruct H3 as [(y & -> & ->)|(f & -> & ->)]; [left; exists y|right; exists f]; auto.
      + injection H as <- <- <-. exists [(PProduce, PAItem (Ok (inl x)))], [(CConsume x, CAUnit (Err e))]. repeat split; [history|history|].
        exists []. left. exists x. auto.
    - destruct (c_close C f sc) as [[sc1 [[]|e]]| |] eqn:EC; cbn [bind] in H; try discriminate; injection H as <- <- <-.
      + exists [(PProduce, PAItem (Ok (inr f)))], [(CClose f, CAUnit (Ok tt))]. repeat split; [history|history|]. exists [], f. auto.
      + exists [(PProduce, PAItem (Ok (inr f)))], [(CClose f, CAUnit (Err e))]. repeat split; [history|history|]. exists []. right. exists f. auto.
    - injection H as <- <- <-. exists [(PProduce, PAItem (Err e))], []. repeat split; [history|history|]. exists []. auto.
  Qed.

  Lemma pipe_made : forall xs sp sc sp' sc' r lp lc,
    match r with
    | Ok _ => exists f, lp = p_items xs ++ [(PProduce, PAItem (Ok (inr f)))] /\ lc = c_items xs ++ [(CClose f, CAUnit (Ok tt))]
    | Err (PipeProducer e) => lp = p_items xs ++ [(PProduce, PAItem (Err e))] /\ lc = c_items xs
    | Err (PipeConsumer e) =>
        (exists x, lp = p_items (xs ++ [x]) /\ lc = c_items xs ++ [(CConsume x, CAUnit (Err e))]) \/
        (exists f, lp = p_items xs ++ [(PProduce, PAItem (Ok (inr f)))] /\ lc = c_items xs ++ [(CClose f, CAUnit (Err e))])
    end -> p_trace P sp lp sp' -> c_trace C sc lc sc' -> exists fuel, pipe fuel P C sp sc = Ret (sp', sc', r).
  Proof.
    induction xs as [|x xs IH]; intros sp sc sp' sc' r lp lc H H1 H2.
    - exists 1. destruct r as [[]|[e|e]].
      + destruct H as (f & -> & ->). cbn in H1, H2. parts. cbn [pipe]. run.
      + destruct H as (-> & ->). cbn in H1, H2. parts. cbn [pipe]. run.
      + destruct H as [(y & -> & ->)|(f & -> & ->)]; cbn in H1, H2; parts; cbn [pipe]; run.
    - assert (HT : exists lp1 lc1, lp = (PProduce, PAItem (Ok (inl x))) :: lp1 /\ lc = (CConsume x, CAUnit (Ok tt)) :: lc1 /\
        match r with
        | Ok _ => exists f, lp1 = p_items xs ++ [(PProduce, PAItem (Ok (inr f)))] /\ lc1 = c_items xs ++ [(CClose f, CAUnit (Ok tt))]
        | Err (PipeProducer e) => lp1 = p_items xs ++ [(PProduce, PAItem (Err e))] /\ lc1 = c_items xs
        | Err (PipeConsumer e) =>
            (exists x, lp1 = p_items (xs ++ [x]) /\ lc1 = c_items xs ++ [(CConsume x, CAUnit (Err e))]) \/
            (exists f, lp1 = p_items xs ++ [(PProduce, PAItem (Ok (inr f)))] /\ lc1 = c_items xs ++ [(CClose f, CAUnit (Err e))])
        end).
      { destruct r as [[]|[e|e]].
        - destruct H as (f & -> & ->). do 2 eexists. split; [reflexivity|]. split; [reflexivity|]. exists f. auto.
        - destruct H as (-> & ->). do 2 eexists. split; [reflexivity|]. split; [reflexivity|]. auto.
        - destruct H as [(y & -> & ->)|(f & -> & ->)]; do 2 eexists; (split; [reflexivity|]); (split; [reflexivity|]); [left|right]; eauto. }
      destruct HT as (lp1 & lc1 & -> & -> & HT). parts.
      match goal with H1 : p_trace _ _ lp1 _, H2 : c_trace _ _ lc1 _ |- _ => destruct (IH _ _ _ _ _ _ _ HT H1 H2) as (fuel & HF) end.
      exists (Datatypes.S fuel). cbn [pipe]. run.
  Qed.

  Lemma pipe_at_most_makes : forall todo piped sp sc sp' sc' r, pipe_at_most_loop todo P C piped sp sc = Ret (sp', sc', r) ->
    exists lp lc, p_trace P sp lp sp' /\ c_trace C sc lc sc' /\
      exists r0, r = match r0 with Ok n => Ok (piped + n) | Err e => Err e end /\ pipe_at_most_calls todo r0 lp lc.
  Proof.
    induction todo as [|todo IH]; intros piped sp sc sp' sc' r H; cbn [pipe_at_most_loop] in H.
    - injection H as <- <- <-. exists [], []. repeat split; [history|history|]. exists (Ok 0). split; [f_equal; lia|]. exists []. cbn. auto.
    - destruct (p_produce P sp) as [[sp1 [[x|f]|e]]| |] eqn:EP; cbn [bind] in H; try discriminate.
      + destruct (c_consume C x sc) as [[sc1 [[]|e]]| |] eqn:EC; cbn [bind] in H; try discriminate.
        * destruct (IH _ _ _ _ _ _ H) as (lp & lc & H1 & H2 & r0 & -> & H3).
          exists ((PProduce, PAItem (Ok (inl x))) :: lp), ((CConsume x, CAUnit (Ok tt)) :: lc). repeat split; [history|history|].
          exists (match r0 with Ok n => Ok (Datatypes.S n) | Err e => Err e end).
          destruct r0 as [n|e]; (split; [f_equal; lia|]); destruct H3 as (xs & H3); exists (x :: xs).
          -- destruct H3 as (-> & [(Hn & -> & ->)|(Hn & f & -> & ->)]); (split; [reflexivity|]).
             ++ left. repeat split. lia.
             ++ right. split; [lia|]. exists f. auto.
          -- destruct H3 as (HL & H3). split; [cbn; lia|]. destruct e as [e|e].
             ++ destruct H3 as (-> & ->). auto.
             ++ destruct H3 as [(y & -> & ->)|(f & -> & ->)]; [left; exists y|right; exists f]; auto.
        * injection H as <- <- <-. exists [(PProduce, PAItem (Ok (inl x)))], [(CConsume x, CAUnit (Err e))]. repeat split; [history|history|].
          exists (Err (PipeConsumer e)). split; [reflexivity|]. exists []. split; [cbn; lia|]. left. exists x. auto.
      + destruct (c_close C f sc) as [[sc1 [[]|e]]| |] eqn:EC; cbn [bind] in H; try discriminate; injection H as <- <- <-.
        * exists [(PProduce, PAItem (Ok (inr f)))], [(CClose f, CAUnit (Ok tt))]. repeat split; [history|history|].
          exists (Ok 0). split; [f_equal; lia|]. exists []. split; [reflexivity|]. right. split; [lia|]. exists f. auto.
        * exists [(PProduce, PAItem (Ok (inr f)))], [(CClose f, CAUnit (Err e))]. repeat split; [history|history|].
          exists (Err (PipeConsumer e)). split; [reflexivity|]. exists []. split; [cbn; lia|]. right. exists f. auto.
      + injection H as <- <- <-. exists [(PProduce, PAItem (Err e))], []. repeat split; [history|history|].
        exists (Err (PipeProducer e)). split; [reflexivity|]. exists []. split; [cbn; lia|]. auto.
  Qed.

  (** Items at the front of the histories are items that are passed on. *)
  Lemma pipe_at_most_passes : forall xs sp sc sp' sc' lp lc todo piped,
    p_trace P sp (p_items xs ++ lp) sp' -> c_trace C sc (c_items xs ++ lc) sc' -> length xs <= todo ->
    exists sp1 sc1, p_trace P sp1 lp sp' /\ c_trace C sc1 lc sc' /\
      pipe_at_most_loop todo P C piped sp sc = pipe_at_most_loop (todo - length xs) P C (piped + length xs) sp1 sc1.
  Proof.
    induction xs as [|x xs IH]; intros sp sc sp' sc' lp lc todo piped H1 H2 HL.
    - exists sp, sc. repeat split; try assumption. cbn [length]. now rewrite Nat.sub_0_r, Nat.add_0_r.
    - cbn in H1, H2, HL. parts. destruct todo as [|todo]; [lia|].
      match goal with H1 : p_trace _ _ (_ ++ lp) _, H2 : c_trace _ _ (_ ++ lc) _ |- _ =>
        destruct (IH _ _ _ _ lp lc todo (piped + 1) H1 H2 ltac:(lia)) as (sp2 & sc2 & H3 & H4 & H5) end.
      exists sp2, sc2. repeat split; try assumption. cbn [pipe_at_most_loop length Nat.sub]. run. rewrite H5. f_equal. lia.
  Qed.
  Lemma pipe_at_most_made : forall count sp sc sp' sc' r lp lc, p_trace P sp lp sp' -> c_trace C sc lc sc' ->
    pipe_at_most_calls count r lp lc -> pipe_at_most P C count sp sc = Ret (sp', sc', r).
  Proof.
    intros count sp sc sp' sc' r lp lc H1 H2 H. unfold pipe_at_most.
    assert (Happ : forall xs (x : T), @p_items T F PE (xs ++ [x]) = p_items xs ++ [(PProduce, PAItem (Ok (inl x)))]) by (intros; unfold p_items; now rewrite map_app).
    destruct r as [n|e].
    - destruct H as (xs & -> & [(Hn & -> & ->)|(Hn & f & -> & ->)]).
      + rewrite <- (app_nil_r (p_items xs)) in H1. rewrite <- (app_nil_r (c_items xs)) in H2.
        destruct (@pipe_at_most_passes xs _ _ _ _ _ _ count 0 H1 H2 ltac:(lia)) as (sp1 & sc1 & H3 & H4 & ->). subst count. parts. now rewrite Nat.sub_diag.
      + destruct (@pipe_at_most_passes xs _ _ _ _ _ _ count 0 H1 H2 ltac:(lia)) as (sp1 & sc1 & H3 & H4 & ->). parts.
        destruct (count - length xs) eqn:EQ; [lia|]. cbn [pipe_at_most_loop]. run.
    - destruct H as (xs & HL & H). destruct e as [e|e].
      + destruct H as (-> & ->). rewrite <- (app_nil_r (c_items xs)) in H2.
        destruct (@pipe_at_most_passes xs _ _ _ _ _ _ count 0 H1 H2 ltac:(lia)) as (sp1 & sc1 & H3 & H4 & ->). parts.
        destruct (count - length xs) eqn:EQ; [lia|]. cbn [pipe_at_most_loop]. run.
      + destruct H as [(y & -> & ->)|(f & -> & ->)].
        * rewrite Happ in H1.
          destruct (@pipe_at_most_passes xs _ _ _ _ _ _ count 0 H1 H2 ltac:(lia)) as (sp1 & sc1 & H3 & H4 & ->). parts.
          destruct (count - length xs) eqn:EQ; [lia|]. cbn [pipe_at_most_loop]. run.
        * destruct (@pipe_at_most_passes xs _ _ _ _ _ _ count 0 H1 H2 ltac:(lia)) as (sp1 & sc1 & H3 & H4 & ->). parts.
          destruct (count - length xs) eqn:EQ; [lia|]. cbn [pipe_at_most_loop]. run.
  Qed.

  Lemma moved_cons : forall {X} (ys : list X) n rs, moved ((ys, n) :: rs) = n + moved rs.
  Proof. reflexivity. Qed.
  Lemma moved_nil : forall {X}, moved (@nil (list X * nat)) = 0.
  Proof. reflexivity. Qed.
  (** A further round in front. *)
  Lemma bulk_pipe_calls_round : forall room (ys : list T) n rs r (lp : list (pop T * pans T F PE)) (lc : list (cop T F * cans CE)), room <> Some 0 -> bulk_pipe_calls (room_after room n) rs r lp lc ->
    bulk_pipe_calls room ((ys, n) :: rs) r ((PExpose, PASlice (Ok (inl ys))) :: (PConsider n, PAUnit (Ok tt)) :: lp)
      ((CBulkConsume (offered room ys), CANat (Ok n)) :: lc).
  Proof.
    intros room ys n rs r lp lc Hne (HR & lp' & lc' & HL & -> & ->). split; [split; assumption|]. exists lp', lc'. repeat split.
    replace (room_after room (moved ((ys, n) :: rs))) with (room_after (room_after room n) (moved rs)); [exact HL|].
    destruct room as [k|]; [|reflexivity]. rewrite moved_cons. cbn [room_after option_map]. f_equal. lia.
  Qed.

  Lemma bulk_pipe_makes : forall fuel sp sc sp' sc' r, bulk_pipe fuel P C sp sc = Ret (sp', sc', r) ->
    exists rs lp lc, p_trace P sp lp sp' /\ c_trace C sc lc sc' /\ bulk_pipe_calls None rs r lp lc.
  Proof.
    induction fuel as [|fuel IH]; intros sp sc sp' sc' r H; cbn [bulk_pipe] in H; [discriminate|].
    destruct (p_expose P sp) as [[sp1 [[ys|f]|e]]| |] eqn:EP; cbn [bind] in H; try discriminate.
    - destruct (c_bulk_consume C ys sc) as [[sc1 [n|e]]| |] eqn:EC; cbn [bind] in H; try discriminate.
      + destruct (p_consider P n sp1) as [[sp2 [[]|e]]| |] eqn:ED; cbn [bind] in H; try discriminate.
        * destruct (IH _ _ _ _ _ H) as (rs & lp & lc & H1 & H2 & H3). exists ((ys, n) :: rs). do 2 eexists.
          split; [|split; [|apply bulk_pipe_calls_round; [discriminate|exact H3]]]; history.
        * injection H as <- <- <-. exists []. do 2 eexists. split; [|split; [|split; [exact Logic.I|do 2 eexists; split; [eapply last_consider with (ys := ys) (n := n); discriminate|split; reflexivity]]]]; history.
      + injection H as <- <- <-. exists []. do 2 eexists. split; [|split; [|split; [exact Logic.I|do 2 eexists; split; [eapply last_consume with (ys := ys); discriminate|split; reflexivity]]]]; history.
    - destruct (c_close C f sc) as [[sc1 [[]|e]]| |] eqn:EC; cbn [bind] in H; try discriminate; injection H as <- <- <-.
      + exists []. do 2 eexists. split; [|split; [|split; [exact Logic.I|do 2 eexists; split; [apply (@last_final T F PE CE None f (Ok tt)); discriminate|split; reflexivity]]]]; history.
      + exists []. do 2 eexists. split; [|split; [|split; [exact Logic.I|do 2 eexists; split; [apply (@last_final T F PE CE None f (Err e)); discriminate|split; reflexivity]]]]; history.
    - injection H as <- <- <-. exists []. do 2 eexists. split; [|split; [|split; [exact Logic.I|do 2 eexists; split; [eapply last_expose; discriminate|split; reflexivity]]]]; history.
  Qed.
  Lemma bulk_pipe_made : forall rs sp sc sp' sc' r lp lc, p_trace P sp lp sp' -> c_trace C sc lc sc' -> bulk_pipe_calls None rs r lp lc ->
    exists fuel, bulk_pipe fuel P C sp sc = Ret (sp', sc', r).
  Proof.
    induction rs as [|[ys n] rs IH]; intros sp sc sp' sc' r lp lc H1 H2 (_ & lp' & lc' & HL & -> & ->).
    - exists 1. cbn in HL, H1, H2. inversion HL; subst; cbn [offered] in *; parts; cbn [bulk_pipe]; run.
      destruct r0 as [[]|e]; reflexivity.
    - cbn in H1, H2. parts.
      match goal with H1 : p_trace _ _ _ sp', H2 : c_trace _ _ _ sc' |- _ => destruct (IH _ _ _ _ r _ _ H1 H2) as (fuel & HF) end.
      { split; [clear; induction rs as [|[]]; cbn; [exact Logic.I|split; [discriminate|assumption]]|]. do 2 eexists. split; [exact HL|split; reflexivity]. }
      exists (Datatypes.S fuel). cbn [bulk_pipe]. run.
  Qed.

  Lemma min_firstn : forall {X} n (ys : list X), firstn (Nat.min n (length ys)) ys = firstn n ys.
  Proof. intros X n ys. destruct (Nat.le_ge_cases n (length ys)); [rewrite Nat.min_l by assumption; reflexivity|]. rewrite Nat.min_r by assumption. now rewrite firstn_all, firstn_all2. Qed.
  Lemma slice_to_min : forall {X} n (ys : list X), slice_to (Nat.min n (length ys)) ys = Ret (firstn n ys).
  Proof. intros X n ys. unfold slice_to. destruct (Nat.ltb_spec (length ys) (Nat.min n (length ys))); [lia|]. now rewrite min_firstn. Qed.

  (** The result in terms of [bulk_pipe_calls]. *)
  Lemma bulk_pipe_at_most_makes : forall fuel count piped sp sc sp' sc' r, bulk_pipe_at_most_loop fuel P C count piped sp sc = Ret (sp', sc', r) ->
    exists rs lp lc r0, p_trace P sp lp sp' /\ c_trace C sc lc sc' /\ bulk_pipe_calls (Some (count - piped)) rs r0 lp lc /\ r = map_ok (fun _ => piped + moved rs) r0.
  Proof.
    induction fuel as [|fuel IH]; intros count piped sp sc sp' sc' r H; cbn [bulk_pipe_at_most_loop] in H; [discriminate|].
    destruct (Nat.ltb_spec piped count) as [HL|HL].
    2:{ injection H as <- <- <-. exists [], [], [], (Ok tt). split; [history|]. split; [history|].
        split; [|cbn [map_ok map_err]; rewrite moved_nil; f_equal; lia]. split; [exact Logic.I|]. exists [], []. split; [|split; reflexivity]. cbn.
        replace (count - piped - 0) with 0 by lia. constructor. }
    assert (Hne : Some (count - piped) <> Some 0) by (intros HF; injection HF; lia).
    assert (Hne0 : room_after (Some (count - piped)) (moved (@nil (list T * nat))) <> Some 0) by (cbn; intros HF; injection HF; lia).
    assert (HO : forall ys : list T, firstn (count - piped) ys = offered (room_after (Some (count - piped)) (moved (@nil (list T * nat)))) ys)
      by (intros; cbn; now rewrite Nat.sub_0_r).
    destruct (p_expose P sp) as [[sp1 [[ys|f]|e]]| |] eqn:EP; cbn [bind] in H; try discriminate.
    - unfold csub in H. destruct (Nat.ltb_spec count piped) as [?|_]; [lia|]. cbn [bind] in H. rewrite slice_to_min in H. cbn [bind] in H.
      destruct (c_bulk_consume C (firstn (count - piped) ys) sc) as [[sc1 [n|e]]| |] eqn:EC; cbn [bind] in H; try discriminate.
      + destruct (p_consider P n sp1) as [[sp2 [[]|e]]| |] eqn:ED; cbn [bind] in H; try discriminate.
        * destruct (IH _ _ _ _ _ _ _ H) as (rs & lp & lc & r0 & H1 & H2 & H3 & ->). exists ((ys, n) :: rs). do 2 eexists. exists r0.
          split; [|split; [|split; [apply bulk_pipe_calls_round; [exact Hne|cbn [room_after option_map]; replace (count - piped - n) with (count - (piped + n)) by lia; exact H3]|]]];
            [history|cbn [offered]; history|]. destruct r0 as [[]|e]; [|reflexivity]. cbn [map_ok]. rewrite moved_cons. f_equal. lia.
        * injection H as <- <- <-. exists []. do 3 eexists. split; [|split; [|split; [split; [exact Logic.I|do 2 eexists; split; [eapply last_consider with (ys := ys) (n := n); exact Hne0|split; reflexivity]]|reflexivity]]];
            [history|rewrite <- HO; history].
      + injection H as <- <- <-. exists []. do 3 eexists. split; [|split; [|split; [split; [exact Logic.I|do 2 eexists; split; [eapply last_consume with (ys := ys); exact Hne0|split; reflexivity]]|reflexivity]]];
          [history|rewrite <- HO; history].
    - destruct (c_close C f sc) as [[sc1 [[]|e]]| |] eqn:EC; cbn [bind] in H; try discriminate; injection H as <- <- <-.
      + exists []. do 3 eexists. split; [|split; [|split; [split; [exact Logic.I|do 2 eexists; split; [apply (@last_final T F PE CE _ f (Ok tt)); exact Hne0|split; reflexivity]]|cbn [map_ok map_err]; rewrite moved_nil; f_equal; lia]]]; history.
      + exists []. do 3 eexists. split; [|split; [|split; [split; [exact Logic.I|do 2 eexists; split; [apply (@last_final T F PE CE _ f (Err e)); exact Hne0|split; reflexivity]]|reflexivity]]]; history.
    - injection H as <- <- <-. exists []. do 3 eexists. split; [|split; [|split; [split; [exact Logic.I|do 2 eexists; split; [eapply last_expose; exact Hne0|split; reflexivity]]|reflexivity]]]; history.
  Qed.
  Lemma bulk_pipe_at_most_made : forall rs count piped sp sc sp' sc' r lp lc, p_trace P sp lp sp' -> c_trace C sc lc sc' ->
    bulk_pipe_calls (Some (count - piped)) rs r lp lc ->
    exists fuel, bulk_pipe_at_most_loop fuel P C count piped sp sc = Ret (sp', sc', map_ok (fun _ => piped + moved rs) r).
  Proof.
    induction rs as [|[ys n] rs IH]; intros count piped sp sc sp' sc' r lp lc H1 H2 (HR & lp' & lc' & HL & -> & ->).
    - exists 1. cbn [app p_rounds c_rounds flat_map] in H1, H2. cbn [bulk_pipe_at_most_loop].
      destruct (Nat.ltb_spec piped count) as [HC|HC].
      + assert (E0 : room_after (Some (count - piped)) (moved (@nil (list T * nat))) = Some (count - piped)) by (cbn; now rewrite Nat.sub_0_r).
        rewrite E0 in HL. unfold csub. destruct (Nat.ltb_spec count piped) as [?|_]; [lia|]. cbn [bind]. rewrite moved_nil.
        inversion HL; subst; cbn [offered] in *; parts; try lia.
        * run. destruct r0 as [[]|e]; [|reflexivity]. cbn. now rewrite Nat.add_0_r.
        * run.
        * repeat match goal with H : p_expose _ _ = _ |- _ => rewrite H end. cbn [bind]. rewrite slice_to_min. cbn [bind]. run.
        * repeat match goal with H : p_expose _ _ = _ |- _ => rewrite H end. cbn [bind]. rewrite slice_to_min. cbn [bind]. run.
      + assert (E0 : room_after (Some (count - piped)) (moved (@nil (list T * nat))) = Some 0) by (cbn; f_equal; lia). rewrite E0 in HL.
        inversion HL; subst; try congruence. parts. rewrite moved_nil. cbn [map_ok]. now rewrite Nat.add_0_r.
    - cbn in HR. destruct HR as (Hne & HR). assert (HC : piped < count) by (destruct (Nat.ltb_spec piped count); [assumption|]; exfalso; apply Hne; f_equal; lia).
      cbn [app p_rounds c_rounds flat_map fst snd offered room_after option_map] in H1, H2. parts.
      assert (E0 : count - piped - n = count - (piped + n)) by lia.
      match goal with H1 : p_trace _ _ _ sp', H2 : c_trace _ _ _ sc' |- _ => destruct (IH count (piped + n) _ _ _ _ r _ _ H1 H2) as (fuel & HF) end.
      { split; [rewrite <- E0; exact HR|]. do 2 eexists. split; [|split; [reflexivity|rewrite E0; reflexivity]].
        rewrite moved_cons in HL. cbn [room_after option_map] in HL |- *.
        replace (count - (piped + n) - moved rs) with (count - piped - (n + moved rs)) by lia. exact HL. }
      exists (Datatypes.S fuel). cbn [bulk_pipe_at_most_loop]. destruct (Nat.ltb_spec piped count); [|lia].
      repeat match goal with H : p_expose _ _ = _ |- _ => rewrite H end. cbn [bind]. unfold csub. destruct (Nat.ltb_spec count piped) as [?|_]; [lia|].
      cbn [bind]. rewrite slice_to_min. cbn [bind]. run. rewrite moved_cons. rewrite Nat.add_assoc. reflexivity.
  Qed.
End Pipes.

(** ** Slices *)
Section Slices.
  Context {S T F E : Type} (P : bulk_producer S T F E) (C : bulk_consumer S T F E).

  Lemma consume_slice_iff : forall buf i s s' r, consume_full_slice_from C i buf s = Ret (s', r) <->
    exists l, c_trace C s l s' /\ exists r0, consume_slice_calls buf r0 l /\ r = match r0 with Ok _ => Ok tt | Err (mk_cale j e) => Err (mk_cale (i + j) e) end.
  Proof.
    induction buf as [|x buf IH]; intros i s s' r; cbn [consume_full_slice_from]; (split; [intros H|intros (l & HT & r0 & H & ->)]).
    - injection H as <- <-. exists []. split; [history|]. exists (Ok tt). repeat split.
    - destruct r0 as [[]|[j e]].
      + cbn in H. subst l. cbn in HT. parts. reflexivity.
      + destruct H as (x & rest & HF & _). destruct j; discriminate HF.
    - destruct (c_consume C x s) as [[s1 [[]|e]]| |] eqn:EC; cbn [bind] in H; try discriminate.
      + apply IH in H as (l & HT & r0 & H & ->). exists ((CConsume x, CAUnit (Ok tt)) :: l). split; [history|].
        exists (match r0 with Ok _ => Ok tt | Err (mk_cale j e) => Err (mk_cale (1 + j) e) end). destruct r0 as [[]|[j e]].
        * cbn in H. subst l. split; reflexivity.
        * split; [|do 2 f_equal; lia]. destruct H as (y & rest & HS & ->). exists y, rest. split; [exact HS|reflexivity].
      + injection H as <- <-. exists [(CConsume x, CAUnit (Err e))]. split; [history|]. exists (Err (mk_cale 0 e)).
        split; [exists x, buf; split; reflexivity|]. do 2 f_equal. lia.
    - destruct r0 as [[]|[j e]].
      + cbn in H. subst l. cbn in HT. parts. run. apply IH. exists (c_items buf). split; [eassumption|]. exists (Ok tt). split; reflexivity.
      + destruct H as (y & rest & HS & ->). destruct j as [|j]; cbn in HS, HT; parts.
        * injection HS as <- <-. run. now rewrite Nat.add_0_r.
        * run. apply IH. eexists. split; [eassumption|]. exists (Err (mk_cale j e)). split; [exists y, rest; split; [exact HS|reflexivity]|]. do 2 f_equal. lia.
  Qed.

  (** [buf] with [i] items done already. *)
  Lemma bulk_consume_slice_makes : forall fuel i buf s s' r, bulk_consume_full_slice_loop fuel C i buf s = Ret (s', r) ->
    exists l, c_trace C s l s' /\ exists r0, bulk_consume_slice_calls (skipn i buf) r0 l /\ r = match r0 with Ok _ => Ok tt | Err (mk_cale j e) => Err (mk_cale (i + j) e) end.
  Proof.
    induction fuel as [|fuel IH]; intros i buf s s' r H; cbn [bulk_consume_full_slice_loop] in H; [discriminate|].
    destruct (Nat.ltb_spec i (length buf)) as [HL|HL].
    - unfold slice_from in H. destruct (Nat.ltb_spec (length buf) i); [lia|]. cbn [bind] in H.
      assert (HN : 0 < length (skipn i buf)) by (rewrite skipn_length; lia).
      destruct (c_bulk_consume C (skipn i buf) s) as [[s1 [n|e]]| |] eqn:EC; cbn [bind] in H; try discriminate.
      + apply IH in H as (l & HT & r0 & (ns & HNE & H) & ->). exists ((CBulkConsume (skipn i buf), CANat (Ok n)) :: l). split; [history|].
        assert (HS : skipn (i + n) buf = skipn n (skipn i buf)) by (rewrite skipn_skipn; f_equal; lia). rewrite HS in HNE, H.
        exists (match r0 with Ok _ => Ok tt | Err (mk_cale j e) => Err (mk_cale (n + j) e) end). split; [|destruct r0 as [[]|[j e]]; [reflexivity|do 2 f_equal; lia]].
        exists (n :: ns). split; [split; [exact HN|rewrite skipn_length in HNE; exact HNE]|].
        change (list_sum (n :: ns)) with (n + list_sum ns).
        assert (HL' := skipn_length n (skipn i buf)).
        destruct r0 as [[]|[j e]].
        * destruct H as (H1 & ->). split; [lia|reflexivity].
        * destruct H as (-> & H1 & ->). split; [reflexivity|]. split; [lia|]. cbn [slice_rounds app]. rewrite (skipn_skipn (list_sum ns) n). reflexivity.
      + injection H as <- <-. exists [(CBulkConsume (skipn i buf), CANat (Err e))]. split; [history|].
        exists (Err (mk_cale 0 e)). split; [|do 2 f_equal; lia]. exists []. split; [exact Logic.I|]. split; [reflexivity|]. split; [exact HN|reflexivity].
    - injection H as <- <-. exists []. split; [history|]. exists (Ok tt). split; [|reflexivity].
      exists []. split; [exact Logic.I|]. split; [cbn; rewrite skipn_length; lia|reflexivity].
  Qed.
  Lemma bulk_consume_slice_made : forall ns i buf s s' (r : res unit (consume_at_least_error E)) l, c_trace C s l s' -> never_empty (length (skipn i buf)) ns ->
    match r with
    | Ok _ => length (skipn i buf) <= list_sum ns /\ l = slice_rounds (skipn i buf) ns
    | Err (mk_cale j e) => j = list_sum ns /\ j < length (skipn i buf) /\ l = slice_rounds (skipn i buf) ns ++ [(CBulkConsume (skipn j (skipn i buf)), CANat (Err e))]
    end -> exists fuel, bulk_consume_full_slice_loop fuel C i buf s = Ret (s', match r with Ok _ => Ok tt | Err (mk_cale j e) => Err (mk_cale (i + j) e) end).
  Proof.
    induction ns as [|n ns IH]; intros i buf s s' r l HT HNE H.
    - exists 1. cbn [bulk_consume_full_slice_loop]. destruct r as [[]|[j e]].
      + destruct H as (H & ->). cbn in HT. parts. cbn in H. rewrite skipn_length in H. destruct (Nat.ltb_spec i (length buf)); [lia|reflexivity].
      + destruct H as (-> & HL & ->). cbn in HT, HL. rewrite skipn_length in HL. destruct (Nat.ltb_spec i (length buf)); [|lia].
        unfold slice_from. destruct (Nat.ltb_spec (length buf) i); [lia|]. cbn [bind]. parts. run. cbn. now rewrite Nat.add_0_r.
    - cbn in HNE. destruct HNE as (HL0 & HNE).
      assert (HS : skipn (i + n) buf = skipn n (skipn i buf)) by (rewrite skipn_skipn; f_equal; lia).
      assert (HSL := skipn_length n (skipn i buf)).
      change (list_sum (n :: ns)) with (n + list_sum ns) in H.
      assert (HX : exists l1, l = (CBulkConsume (skipn i buf), CANat (Ok n)) :: l1 /\
        let r1 : res unit (consume_at_least_error E) := match r with Ok _ => Ok tt | Err (mk_cale j e) => Err (mk_cale (j - n) e) end in
        match r1 with
        | Ok _ => length (skipn (i + n) buf) <= list_sum ns /\ l1 = slice_rounds (skipn (i + n) buf) ns
        | Err (mk_cale j e) => j = list_sum ns /\ j < length (skipn (i + n) buf) /\ l1 = slice_rounds (skipn (i + n) buf) ns ++ [(CBulkConsume (skipn j (skipn (i + n) buf)), CANat (Err e))]
        end).
      { rewrite HS. destruct r as [[]|[j e]].
        - destruct H as (H & ->). eexists. split; [reflexivity|]. cbv zeta. split; [lia|reflexivity].
        - destruct H as (-> & H & ->). eexists. split; [reflexivity|]. cbv zeta. split; [lia|]. split; [lia|].
          rewrite (skipn_skipn (n + list_sum ns - n) n). replace (n + (n + list_sum ns - n)) with (n + list_sum ns) by lia. reflexivity. }
      destruct HX as (l1 & -> & HX). parts.
      rewrite <- HSL, <- HS in HNE.
      match goal with H1 : c_trace _ _ l1 _ |- _ => destruct (IH (i + n) buf _ _ (match r with Ok _ => Ok tt | Err (mk_cale j e) => Err (mk_cale (j - n) e) end) _ H1 HNE HX) as (fuel & HF) end.
      exists (Datatypes.S fuel). cbn [bulk_consume_full_slice_loop]. rewrite skipn_length in HL0. destruct (Nat.ltb_spec i (length buf)); [|lia].
      unfold slice_from. destruct (Nat.ltb_spec (length buf) i); [lia|]. run. do 2 f_equal. destruct r as [[]|[j e]]; [reflexivity|].
      destruct H as (-> & _). do 2 f_equal. lia.
  Qed.

  Lemma overwrite_slice_makes : forall todo done rest s s' buf' r, length rest = todo ->
    overwrite_full_slice_from P todo (length done) (done ++ rest) s = Ret (s', (buf', r)) ->
    exists l, p_trace P s l s' /\ exists r0 rest', overwrite_slice_calls rest rest' r0 l /\ buf' = done ++ rest' /\
      r = match r0 with Ok _ => Ok tt | Err (mk_pale j e) => Err (mk_pale (length done + j) e) end.
  Proof.
    induction todo as [|todo IH]; intros done rest s s' buf' r HL H; cbn [overwrite_full_slice_from] in H.
    - injection H as <- <- <-. exists []. split; [history|]. exists (Ok tt), rest. split; [|split; reflexivity]. exists []. split; [reflexivity|]. split; [now rewrite HL|reflexivity].
    - destruct rest as [|y rest]; [discriminate|]. injection HL as HL.
      destruct (p_produce P s) as [[s1 [[x|f]|e]]| |] eqn:EP; cbn [bind] in H; try discriminate.
      + unfold index_set in H. destruct (Nat.ltb_spec (length done) (length (done ++ y :: rest))) as [_|HF]; [|rewrite app_length in HF; cbn in HF; lia]. cbn [bind] in H.
        replace (blit (length done) [x] (done ++ y :: rest)) with ((done ++ [x]) ++ rest) in H.
        2:{ clear. unfold blit. induction done as [|z done IHd]; [reflexivity|]. exact (f_equal (cons z) IHd). }
        replace (length done + 1) with (length (done ++ [x])) in H by (rewrite app_length; reflexivity).
        apply IH in H as (l & HT & r0 & rest' & (xs & -> & H) & -> & ->); [|exact HL].
        exists ((PProduce, PAItem (Ok (inl x))) :: l). split; [history|].
        exists (match r0 with Ok _ => Ok tt | Err (mk_pale j e) => Err (mk_pale (1 + j) e) end), (x :: xs ++ skipn (length xs) rest).
        split; [|split; [now rewrite <- app_assoc|destruct r0 as [[]|[j e]]; [reflexivity|rewrite app_length; cbn [length]; do 2 f_equal; lia]]].
        exists (x :: xs). split; [reflexivity|]. destruct r0 as [[]|[j e]].
        * destruct H as (H & ->). split; [cbn; now rewrite H|reflexivity].
        * destruct H as (-> & H & ->). split; [reflexivity|]. split; [cbn; lia|reflexivity].
      + injection H as <- <- <-. exists [(PProduce, PAItem (Ok (inr f)))]. split; [history|]. exists (Err (mk_pale 0 (inl f))), (y :: rest).
        split; [|split; [reflexivity|do 2 f_equal; lia]]. exists []. split; [reflexivity|]. split; [reflexivity|]. split; [cbn; lia|reflexivity].
      + injection H as <- <- <-. exists [(PProduce, PAItem (Err e))]. split; [history|]. exists (Err (mk_pale 0 (inr e))), (y :: rest).
        split; [|split; [reflexivity|do 2 f_equal; lia]]. exists []. split; [reflexivity|]. split; [reflexivity|]. split; [cbn; lia|reflexivity].
  Qed.
  Lemma overwrite_slice_made : forall xs done rest s s' l (r : res unit (produce_at_least_error F E)), p_trace P s l s' ->
    match r with
    | Ok _ => length xs = length rest /\ l = p_items xs
    | Err (mk_pale i reason) => i = length xs /\ i < length rest /\ l = p_items xs ++ [(PProduce, PAItem (report reason))]
    end ->
    overwrite_full_slice_from P (length rest) (length done) (done ++ rest) s =
      Ret (s', (done ++ xs ++ skipn (length xs) rest, match r with Ok _ => Ok tt | Err (mk_pale j e) => Err (mk_pale (length done + j) e) end)).
  Proof.
    induction xs as [|x xs IH]; intros done rest s s' l r HT H.
    - destruct r as [[]|[j reason]].
      + destruct H as (HL & ->). destruct rest; [|discriminate]. cbn in HT. parts. reflexivity.
      + destruct H as (-> & HL & ->). destruct rest as [|y rest]; [cbn in HL; lia|]. cbn in HT. parts. cbn [overwrite_full_slice_from length].
        match goal with H : p_produce _ _ = _ |- _ => rewrite H end. cbn [bind]. rewrite Nat.add_0_r. destruct reason; reflexivity.
    - assert (HR : exists y rest1 l1, rest = y :: rest1 /\ l = (PProduce, PAItem (Ok (inl x))) :: l1 /\
        let r1 : res unit (produce_at_least_error F E) := match r with Ok _ => Ok tt | Err (mk_pale j e) => Err (mk_pale (j - 1) e) end in
        match r1 with
        | Ok _ => length xs = length rest1 /\ l1 = p_items xs
        | Err (mk_pale i reason) => i = length xs /\ i < length rest1 /\ l1 = p_items xs ++ [(PProduce, PAItem (report reason))]
        end).
      { destruct rest as [|y rest]; [destruct r as [[]|[j reason]]; [destruct H as (HF & _); discriminate HF|destruct H as (_ & HF & _); cbn in HF; lia]|].
        destruct r as [[]|[j reason]].
        - destruct H as (H & ->). do 3 eexists. split; [reflexivity|]. split; [reflexivity|]. cbv zeta. split; [now injection H|reflexivity].
        - destruct H as (-> & H & ->). do 3 eexists. split; [reflexivity|]. split; [reflexivity|]. cbv zeta. cbn in H |- *. split; [lia|]. split; [lia|reflexivity]. }
      destruct HR as (y & rest1 & l1 & -> & -> & HR). parts.
      cbn [length overwrite_full_slice_from]. match goal with H : p_produce _ _ = _ |- _ => rewrite H end. cbn [bind].
      unfold index_set. destruct (Nat.ltb_spec (length done) (length (done ++ y :: rest1))) as [_|HF]; [|rewrite app_length in HF; cbn in HF; lia]. cbn [bind].
      replace (blit (length done) [x] (done ++ y :: rest1)) with ((done ++ [x]) ++ rest1).
      2:{ clear. unfold blit. induction done as [|z done IHd]; [reflexivity|]. exact (f_equal (cons z) IHd). }
      replace (length done + 1) with (length (done ++ [x])) by (rewrite app_length; reflexivity).
      match goal with H1 : p_trace _ _ l1 _ |- _ => rewrite (IH (done ++ [x]) rest1 _ _ _ _ H1 HR) end.
      rewrite <- app_assoc. cbn [app skipn]. do 3 f_equal. destruct r as [[]|[j e]]; [reflexivity|]. rewrite app_length. destruct H as (-> & _). cbn [length]. do 2 f_equal. lia.
  Qed.

  Lemma bulk_overwrite_slice_makes : forall fuel i buf s s' buf' r, bulk_overwrite_full_slice_loop fuel P i buf s = Ret (s', (buf', r)) ->
    exists l, p_trace P s l s' /\ exists rs, let b := overwritten buf i rs in let j := i + moved rs in never_full buf i rs /\
      match r with
      | Ok _ => length b <= j /\ buf' = b /\ l = overwrite_rounds buf i rs
      | Err (mk_pale k reason) => exists rest, k = j /\ j < length b /\ buf' = firstn j b ++ rest /\
          l = overwrite_rounds buf i rs ++ [(PBulkProduce (skipn j b), PABuf rest (report reason))]
      end.
  Proof.
    induction fuel as [|fuel IH]; intros i buf s s' buf' r H; cbn [bulk_overwrite_full_slice_loop] in H; [discriminate|].
    destruct (Nat.ltb_spec i (length buf)) as [HL|HL].
    - unfold slice_from in H. destruct (Nat.ltb_spec (length buf) i); [lia|]. cbn [bind] in H.
      destruct (p_bulk_produce P (skipn i buf) s) as [[s1 [rest [[n|f]|e]]]| |] eqn:EP; cbn [bind] in H; try discriminate.
      + apply IH in H as (l & HT & rs & HNF & H). exists ((PBulkProduce (skipn i buf), PABuf rest (Ok (inl n))) :: l). split; [history|].
        exists ((rest, n) :: rs). rewrite moved_cons. cbv zeta in *. cbn [overwritten never_full overwrite_rounds]. rewrite Nat.add_assoc. split; [split; [exact HL|exact HNF]|].
        destruct r as [[]|[k reason]].
        * destruct H as (H1 & H2 & ->). auto.
        * destruct H as (rest' & H1 & H2 & H3 & ->). exists rest'. auto.
      + injection H as <- <- <-. exists [(PBulkProduce (skipn i buf), PABuf rest (Ok (inr f)))]. split; [history|].
        exists []. rewrite moved_nil, Nat.add_0_r. split; [exact Logic.I|]. exists rest. auto.
      + injection H as <- <- <-. exists [(PBulkProduce (skipn i buf), PABuf rest (Err e))]. split; [history|].
        exists []. rewrite moved_nil, Nat.add_0_r. split; [exact Logic.I|]. exists rest. auto.
    - injection H as <- <- <-. exists []. split; [history|]. exists []. rewrite moved_nil, Nat.add_0_r. split; [exact Logic.I|]. auto.
  Qed.
  Lemma bulk_overwrite_slice_made : forall rs i buf s s' buf' (r : res unit (produce_at_least_error F E)) l, p_trace P s l s' -> never_full buf i rs ->
    (let b := overwritten buf i rs in let j := i + moved rs in
      match r with
      | Ok _ => length b <= j /\ buf' = b /\ l = overwrite_rounds buf i rs
      | Err (mk_pale k reason) => exists rest, k = j /\ j < length b /\ buf' = firstn j b ++ rest /\
          l = overwrite_rounds buf i rs ++ [(PBulkProduce (skipn j b), PABuf rest (report reason))]
      end) -> exists fuel, bulk_overwrite_full_slice_loop fuel P i buf s = Ret (s', (buf', r)).
  Proof.
    induction rs as [|[rest n] rs IH]; intros i buf s s' buf' r l HT HNF H.
    - exists 1. cbn [bulk_overwrite_full_slice_loop]. rewrite moved_nil, Nat.add_0_r in H. cbv zeta in H. destruct r as [[]|[k reason]].
      + destruct H as (HL & -> & ->). cbn in HT, HL. parts. destruct (Nat.ltb_spec i (length buf)); [lia|reflexivity].
      + destruct H as (rest & -> & HL & -> & ->). cbn in HT, HL. destruct (Nat.ltb_spec i (length buf)); [|lia].
        unfold slice_from. destruct (Nat.ltb_spec (length buf) i); [lia|]. cbn [bind]. parts. run. destruct reason; reflexivity.
    - cbn in HNF. destruct HNF as (HL0 & HNF). rewrite moved_cons, Nat.add_assoc in H. cbv zeta in H. cbn [overwritten overwrite_rounds] in H.
      assert (HX : exists l1, l = (PBulkProduce (skipn i buf), PABuf rest (Ok (inl n))) :: l1 /\
        (let b := overwritten (firstn i buf ++ rest) (i + n) rs in let j := i + n + moved rs in
          match r with
          | Ok _ => length b <= j /\ buf' = b /\ l1 = overwrite_rounds (firstn i buf ++ rest) (i + n) rs
          | Err (mk_pale k reason) => exists rest', k = j /\ j < length b /\ buf' = firstn j b ++ rest' /\
              l1 = overwrite_rounds (firstn i buf ++ rest) (i + n) rs ++ [(PBulkProduce (skipn j b), PABuf rest' (report reason))]
          end)).
      { destruct r as [[]|[k reason]].
        - destruct H as (H1 & H2 & ->). eexists. split; [reflexivity|]. cbv zeta. auto.
        - destruct H as (rest' & H1 & H2 & H3 & ->). eexists. split; [reflexivity|]. cbv zeta. exists rest'. auto. }
      destruct HX as (l1 & -> & HX). parts.
      match goal with H1 : p_trace _ _ l1 _ |- _ => destruct (IH (i + n) (firstn i buf ++ rest) _ _ buf' r _ H1 HNF HX) as (fuel & HF) end.
      exists (Datatypes.S fuel). cbn [bulk_overwrite_full_slice_loop]. destruct (Nat.ltb_spec i (length buf)); [|lia].
      unfold slice_from. destruct (Nat.ltb_spec (length buf) i); [lia|]. cbn [bind]. run.
  Qed.
End Slices.

(** ** Towers of consumers *)
Section ConsumerTowers.
  Context {S T F E : Type} (C : bulk_consumer S T F E).

  (** What one call does in the middle. *)
  Notation calls t s o s' a := (exists l, c_trace C (ct_base t s) l (ct_base t s') /\ ct_call t s o l a).

  Lemma ct_consume_calls : forall G B (t : ctower F E G B) x s s' r, c_consume (ct_consumer C t) x s = Ret (s', r) -> calls t s (CConsume x) s' (CAUnit r).
  Proof.
    intros G B t x. induction t as [|G B n t IH|G B K g t IH|G B t IH]; intros s s' r H; cbn [ct_state ct_consumer ct_base ct_call ct_blocked ct_error] in *.
    - exists [(CConsume x, CAUnit r)]. split; [history|]. eexists. split; [reflexivity|]. destruct r; reflexivity.
    - cbn in H. unfold limit_consume in H. destruct s as [i [|k]]; cbn in *.
      + injection H as <- <-. exists []. split; [history|]. split; reflexivity.
      + destruct (c_consume (ct_consumer C t) x i) as [[i1 r1]| |] eqn:EC; cbn in H; try discriminate. injection H as <- <-. cbn.
        destruct (IH _ _ _ EC) as (l & HT & HC). exists l. split; [exact HT|]. destruct (ct_blocked t i) as [b|]; cbn.
        * destruct HC as (-> & HC). injection HC as ->. split; reflexivity.
        * destruct HC as (r0 & -> & HC). injection HC as ->. exists r0. split; [reflexivity|]. destruct r0; reflexivity.
    - cbn in H. unfold map_final_consume in H. destruct (c_consume (ct_consumer C t) x (wf_inner s)) as [[i1 r1]| |] eqn:EC; cbn in H; try discriminate.
      injection H as <- <-. exact (IH _ _ _ EC).
    - cbn in H. unfold invariant_consume, inv_check in H. destruct (inv_active s); [|discriminate].
      destruct (c_consume (ct_consumer C t) x (inv_inner s)) as [[i1 r1]| |] eqn:EC; cbn in H; try discriminate. injection H as <- <-. exact (IH _ _ _ EC).
  Qed.
  Lemma ct_close_calls : forall G B (t : ctower F E G B) g s s' r, c_close (ct_consumer C t) g s = Ret (s', r) -> calls t s (CClose g) s' (CAUnit r).
  Proof.
    intros G B t. induction t as [|G B n t IH|G B K h t IH|G B t IH]; intros g s s' r H; cbn [ct_state ct_consumer ct_base ct_call ct_final ct_error] in *.
    - exists [(CClose g, CAUnit r)]. split; [history|]. do 2 eexists. split; [reflexivity|]. split; [reflexivity|]. destruct r; reflexivity.
    - cbn in H. unfold limit_close in H. destruct (c_close (ct_consumer C t) g (lim_inner s)) as [[i1 r1]| |] eqn:EC; cbn in H; try discriminate. injection H as <- <-. cbn.
      destruct (IH _ _ _ _ EC) as (l & HT & f & r0 & HF & -> & HC). injection HC as ->. eexists. split; [exact HT|]. exists f, r0. split; [exact HF|]. split; [reflexivity|]. destruct r0; reflexivity.
    - cbn in H. unfold map_final_close in H. destruct s as [i [k|]]; [|discriminate H]. cbn [wf_inner wf_fun expect bind] in *.
      destruct (c_close (ct_consumer C t) (k g) i) as [[i1 r1]| |] eqn:EC; cbn in H; try discriminate. injection H as <- <-. exact (IH _ _ _ _ EC).
    - cbn in H. unfold invariant_close, inv_check in H. destruct (inv_active s); [|discriminate].
      destruct (c_close (ct_consumer C t) g (inv_inner s)) as [[i1 r1]| |] eqn:EC; cbn in H; try discriminate. injection H as <- <-. exact (IH _ _ _ _ EC).
  Qed.
  Lemma ct_flush_calls : forall G B (t : ctower F E G B) s s' r, c_flush (ct_consumer C t) s = Ret (s', r) -> calls t s CFlush s' (CAUnit r).
  Proof.
    intros G B t. induction t as [|G B n t IH|G B K h t IH|G B t IH]; intros s s' r H; cbn [ct_state ct_consumer ct_base ct_call ct_error] in *.
    - exists [(CFlush, CAUnit r)]. split; [history|]. eexists. split; [reflexivity|]. destruct r; reflexivity.
    - cbn in H. unfold limit_flush in H. destruct (c_flush (ct_consumer C t) (lim_inner s)) as [[i1 r1]| |] eqn:EC; cbn in H; try discriminate. injection H as <- <-. cbn.
      destruct (IH _ _ _ EC) as (l & HT & r0 & -> & HC). injection HC as ->. eexists. split; [exact HT|]. exists r0. split; [reflexivity|]. destruct r0; reflexivity.
    - cbn in H. unfold map_final_flush in H. destruct (c_flush (ct_consumer C t) (wf_inner s)) as [[i1 r1]| |] eqn:EC; cbn in H; try discriminate. injection H as <- <-. exact (IH _ _ _ EC).
    - cbn in H. unfold invariant_flush, inv_check in H. destruct (inv_active s); [|discriminate].
      destruct (c_flush (ct_consumer C t) (inv_inner s)) as [[i1 r1]| |] eqn:EC; cbn in H; try discriminate. injection H as <- <-. exact (IH _ _ _ EC).
  Qed.
  Lemma ct_expose_calls : forall G B (t : ctower F E G B) s s' r, c_expose (ct_consumer C t) s = Ret (s', r) -> calls t s CExpose s' (CASlots r).
  Proof.
    intros G B t. induction t as [|G B n t IH|G B K h t IH|G B t IH]; intros s s' r H; cbn [ct_state ct_consumer ct_base ct_call ct_blocked ct_error ct_room] in *.
    - exists [(CExpose, CASlots r)]. split; [history|]. eexists. split; [reflexivity|]. destruct r; reflexivity.
    - cbn in H. unfold limit_expose_slots in H. destruct s as [i k]. cbn [lim_inner lim_remaining] in *. destruct (k =? 0).
      + injection H as <- <-. exists []. split; [history|]. split; reflexivity.
      + destruct (c_expose (ct_consumer C t) i) as [[i1 r1]| |] eqn:EC; cbn [bind] in H; try discriminate.
        destruct (IH _ _ _ EC) as (l & HT & HC). exists l. destruct (ct_blocked t i) as [b|].
        * destruct HC as (-> & HC). injection HC as ->. injection H as <- <-. split; [exact HT|]. split; reflexivity.
        * destruct HC as (r0 & -> & HC). injection HC as ->. destruct r0 as [n0|e]; cbn in H; injection H as <- <-; (split; [exact HT|]); eexists; (split; [reflexivity|]); reflexivity.
    - cbn in H. unfold map_final_expose_slots in H. destruct (c_expose (ct_consumer C t) (wf_inner s)) as [[i1 r1]| |] eqn:EC; cbn in H; try discriminate. injection H as <- <-. exact (IH _ _ _ EC).
    - cbn in H. unfold invariant_expose_slots, inv_check in H. destruct (inv_active s); [|discriminate].
      destruct (c_expose (ct_consumer C t) (inv_inner s)) as [[i1 r1]| |] eqn:EC; cbn in H; try discriminate. destruct r1; injection H as <- <-; exact (IH _ _ _ EC).
  Qed.
  Lemma ct_write_base : forall G B (t : ctower F E G B) ys s, ct_base t (c_write (ct_consumer C t) ys s) = c_write C ys (ct_base t s).
  Proof. intros G B t ys. induction t as [|G B n t IH|G B K h t IH|G B t IH]; intros s; cbn; [reflexivity|apply IH..]. Qed.
  Lemma ct_slots_calls : forall G B (t : ctower F E G B) n s s' r, c_consume_slots (ct_consumer C t) n s = Ret (s', r) -> calls t s (CConsumeSlots n) s' (CAUnit r).
  Proof.
    intros G B t n. induction t as [|G B m t IH|G B K h t IH|G B t IH]; intros s s' r H; cbn [ct_state ct_consumer ct_base ct_call ct_error] in *.
    - exists [(CConsumeSlots n, CAUnit r)]. split; [history|]. eexists. split; [reflexivity|]. destruct r; reflexivity.
    - cbn in H. unfold limit_consume_slots in H. destruct (csub (lim_remaining s) n); cbn [bind] in H; try discriminate H.
      destruct (c_consume_slots (ct_consumer C t) n (lim_inner s)) as [[i1 r1]| |] eqn:EC; cbn in H; try discriminate. injection H as <- <-. cbn.
      destruct (IH _ _ _ EC) as (l & HT & r0 & -> & HC). injection HC as ->. eexists. split; [exact HT|]. exists r0. split; [reflexivity|]. destruct r0; reflexivity.
    - cbn in H. unfold map_final_consume_slots in H. destruct (c_consume_slots (ct_consumer C t) n (wf_inner s)) as [[i1 r1]| |] eqn:EC; cbn in H; try discriminate. injection H as <- <-. exact (IH _ _ _ EC).
    - cbn in H. unfold invariant_consume_slots, inv_check in H. destruct (inv_active s); [|discriminate]. destruct (inv_exposed s <? n); [discriminate|].
      destruct (csub (inv_exposed s) n); cbn [bind] in H; try discriminate H.
      destruct (c_consume_slots (ct_consumer C t) n (inv_inner s)) as [[i1 r1]| |] eqn:EC; cbn in H; try discriminate. injection H as <- <-. exact (IH _ _ _ EC).
  Qed.

  Lemma ct_calls : forall G B (t : ctower F E G B) o s s' a, (forall buf, o = CBulkConsume buf -> ~ bare_consumer t) ->
    c_do (ct_consumer C t) o s = Ret (s', a) -> calls t s o s' a.
  Proof.
    intros G B t o s s' a HB H. destruct o as [x|g| | |ys|n|buf].
    - cbn [c_do] in H. destruct (c_consume (ct_consumer C t) x s) as [[s1 r]| |] eqn:EC; cbn in H; try discriminate. injection H as <- <-. exact (ct_consume_calls _ _ _ EC).
    - cbn [c_do] in H. destruct (c_close (ct_consumer C t) g s) as [[s1 r]| |] eqn:EC; cbn in H; try discriminate. injection H as <- <-. exact (ct_close_calls _ _ _ EC).
    - cbn [c_do] in H. destruct (c_flush (ct_consumer C t) s) as [[s1 r]| |] eqn:EC; cbn in H; try discriminate. injection H as <- <-. exact (ct_flush_calls _ _ EC).
    - cbn [c_do] in H. destruct (c_expose (ct_consumer C t) s) as [[s1 r]| |] eqn:EC; cbn in H; try discriminate. injection H as <- <-. exact (ct_expose_calls _ _ EC).
    - cbn [c_do] in H. injection H as <- <-. exists [(CWrite ys, CANone)]. split; [|split; reflexivity]. eapply c_trace_step; [reflexivity|]. rewrite ct_write_base. constructor.
    - cbn [c_do] in H. destruct (c_consume_slots (ct_consumer C t) n s) as [[s1 r]| |] eqn:EC; cbn in H; try discriminate. injection H as <- <-. exact (ct_slots_calls _ _ _ EC).
    - specialize (HB _ eq_refl).
      assert (HD : c_bulk_consume (ct_consumer C t) buf s = default_bulk_consume (c_expose (ct_consumer C t)) (c_write (ct_consumer C t)) (c_consume_slots (ct_consumer C t)) buf s)
        by (destruct t; [elim HB; exact Logic.I|reflexivity..]).
      cbn [c_do] in H. rewrite HD in H. unfold default_bulk_consume in H. clear HD HB.
      destruct (c_expose (ct_consumer C t) s) as [[s1 r1]| |] eqn:EC; cbn [bind] in H; try discriminate.
      destruct (ct_expose_calls _ _ EC) as (l & HT & HC). cbn [ct_call] in HC |- *. destruct (ct_blocked t s) as [b|].
      + destruct HC as (-> & HC). injection HC as ->. cbn in H. injection H as <- <-. exists []. split; [exact HT|]. split; reflexivity.
      + destruct HC as (r & -> & HC). injection HC as ->. destruct r as [n|e]; cbn [map_ok map_err] in H.
        2:{ cbn in H. injection H as <- <-. eexists. split; [exact HT|]. left. exists e. split; reflexivity. }
        set (k := Nat.min (ct_room t s n) (length buf)) in *. cbv zeta in H.
        destruct (c_consume_slots (ct_consumer C t) k (c_write (ct_consumer C t) (firstn k buf) s1)) as [[s2 r2]| |] eqn:EK; cbn [bind] in H; try discriminate.
        destruct (ct_slots_calls _ _ _ EK) as (l2 & HT2 & r & -> & HC). injection HC as ->. rewrite ct_write_base in HT2.
        exists ([(CExpose, CASlots (Ok n))] ++ [(CWrite (firstn k buf), CANone)] ++ [(CConsumeSlots k, CAUnit r)]).
        assert (HT3 : c_trace C (ct_base t s) ([(CExpose, CASlots (Ok n))] ++ [(CWrite (firstn k buf), CANone)] ++ [(CConsumeSlots k, CAUnit r)]) (ct_base t s2)).
        { eapply c_trace_app; [exact HT|]. eapply c_trace_app; [eapply c_trace_one; reflexivity|]. exact HT2. }
        destruct r as [[]|e]; cbn in H; injection H as <- <-; (split; [exact HT3|]); right; exists n; eexists; split; reflexivity.
  Qed.
End ConsumerTowers.

(** ** Towers of producers *)
Section ProducerTowers.
  Context {S T F E : Type} (P : bulk_producer S T F E).
  Notation calls t s o s' a := (exists l, p_trace P (pt_base t s) l (pt_base t s') /\ pt_call t s o l a).

  Lemma pt_produce_calls : forall G (t : ptower T F E G) s s' r, unscrambled t -> p_produce (pt_producer P t) s = Ret (s', r) -> calls t s PProduce s' (PAItem r).
  Proof.
    intros G t. induction t as [|G n t IH|G B g t IH|G t IH|G]; intros s s' r HU H; cbn [unscrambled] in HU; try contradiction; cbn [pt_state pt_producer pt_base pt_call pt_blocked] in *.
    - exists [(PProduce, PAItem r)]. split; [history|]. do 2 eexists. split; [reflexivity|]. split; [reflexivity|]. destruct r as [[x|f]|e]; cbn; [reflexivity|eexists; split; reflexivity|reflexivity].
    - cbn in H. unfold limit_produce in H. destruct s as [i [|k]]; cbn [lim_inner lim_remaining] in *.
      + injection H as <- <-. exists []. split; [history|]. cbn. split; [reflexivity|]. eexists. split; reflexivity.
      + destruct (p_produce (pt_producer P t) i) as [[i1 r1]| |] eqn:EC; cbn [bind] in H; try discriminate.
        destruct (IH _ _ _ HU EC) as (l & HT & HC). exists l. cbn [Nat.eqb orb].
        destruct (pt_blocked t i).
        * destruct HC as (-> & g & HF & HC). injection HC as ->. injection H as <- <-. split; [exact HT|]. split; [reflexivity|]. exists (Some g). cbn. rewrite HF. split; reflexivity.
        * destruct HC as (r0 & r' & -> & HC & HA). injection HC as <-. destruct r0 as [[x|f]|e]; cbn in HA; [subst r1|destruct HA as (g & HF & ->)|subst r1]; injection H as <- <-; (split; [exact HT|]);
            do 2 eexists; (split; [reflexivity|]); (split; [reflexivity|]); cbn; [reflexivity|exists (Some g); rewrite HF; split; reflexivity|reflexivity].
    - cbn in H. unfold map_final_produce, map_final_result in H. destruct s as [i w]. cbn [wf_inner wf_fun] in *. destruct (p_produce (pt_producer P t) i) as [[i1 r1]| |] eqn:EC; cbn [bind] in H; try discriminate.
      destruct (IH _ _ _ HU EC) as (l & HT & HC). exists l. destruct (pt_blocked t i).
      + destruct HC as (-> & x & HF & HC). injection HC as ->. cbn in H. destruct w as [h|] eqn:EF; cbn in H; [|discriminate]. injection H as <- <-. split; [exact HT|]. split; [reflexivity|].
        exists (h x). cbn. rewrite HF. split; reflexivity.
      + destruct HC as (r0 & r' & -> & HC & HA). injection HC as <-. destruct r0 as [[x|f]|e]; cbn in HA; [subst r1|destruct HA as (x & HF & ->)|subst r1]; cbn in H;
          [|destruct w as [h|] eqn:EF; cbn in H; [|discriminate]|]; injection H as <- <-; (split; [exact HT|]); do 2 eexists; (split; [reflexivity|]); (split; [reflexivity|]); cbn;
          [reflexivity|exists (h x); rewrite HF; split; reflexivity|reflexivity].
    - cbn in H. unfold invariant_produce, inv_check in H. destruct (inv_active s); [|discriminate].
      destruct (p_produce (pt_producer P t) (inv_inner s)) as [[i1 r1]| |] eqn:EC; cbn in H; try discriminate. injection H as <- <-. exact (IH _ _ _ HU EC).
  Qed.
  Lemma pt_slurp_calls : forall G (t : ptower T F E G) s s' r, unscrambled t -> p_slurp (pt_producer P t) s = Ret (s', r) -> calls t s PSlurp s' (PAUnit r).
  Proof.
    intros G t. induction t as [|G n t IH|G B g t IH|G t IH|G]; intros s s' r HU H; cbn [unscrambled] in HU; try contradiction; cbn [pt_state pt_producer pt_base pt_call] in *.
    - exists [(PSlurp, PAUnit r)]. split; [history|]. eexists. split; reflexivity.
    - cbn in H. unfold limit_slurp in H. destruct (p_slurp (pt_producer P t) (lim_inner s)) as [[i1 r1]| |] eqn:EC; cbn in H; try discriminate. injection H as <- <-. destruct (IH _ _ _ HU EC) as (l & HT & r0 & -> & HC). injection HC as ->. eexists. split; [exact HT|]. exists r0. split; reflexivity.
    - cbn in H. unfold map_final_slurp in H. destruct (p_slurp (pt_producer P t) (wf_inner s)) as [[i1 r1]| |] eqn:EC; cbn in H; try discriminate. injection H as <- <-. destruct (IH _ _ _ HU EC) as (l & HT & r0 & -> & HC). injection HC as ->. eexists. split; [exact HT|]. exists r0. split; reflexivity.
    - cbn in H. unfold invariant_slurp, inv_check in H. destruct (inv_active s); [|discriminate].
      destruct (p_slurp (pt_producer P t) (inv_inner s)) as [[i1 r1]| |] eqn:EC; cbn in H; try discriminate. injection H as <- <-. exact (IH _ _ _ HU EC).
  Qed.
  Lemma pt_expose_calls : forall G (t : ptower T F E G) s s' r, unscrambled t -> p_expose (pt_producer P t) s = Ret (s', r) -> calls t s PExpose s' (PASlice r).
  Proof.
    intros G t. induction t as [|G n t IH|G B g t IH|G t IH|G]; intros s s' r HU H; cbn [unscrambled] in HU; try contradiction; cbn [pt_state pt_producer pt_base pt_call pt_blocked pt_shown] in *.
    - exists [(PExpose, PASlice r)]. split; [history|]. do 2 eexists. split; [reflexivity|]. split; [reflexivity|]. destruct r as [[x|f]|e]; cbn; [reflexivity|eexists; split; reflexivity|reflexivity].
    - cbn in H. unfold limit_expose in H. destruct s as [i k]. cbn [lim_inner lim_remaining] in *. destruct (k =? 0) eqn:E0.
      + injection H as <- <-. exists []. split; [history|]. cbn. rewrite E0. split; [reflexivity|]. eexists. split; reflexivity.
      + destruct (p_expose (pt_producer P t) i) as [[i1 r1]| |] eqn:EC; cbn [bind] in H; try discriminate.
        destruct (IH _ _ _ HU EC) as (l & HT & HC). exists l. cbn [orb].
        destruct (pt_blocked t i).
        * destruct HC as (-> & g & HF & HC). injection HC as ->. injection H as <- <-. split; [exact HT|]. split; [reflexivity|]. exists (Some g). cbn. rewrite E0, HF. split; reflexivity.
        * destruct HC as (r0 & r' & -> & HC & HA). injection HC as <-. destruct r0 as [[x|f]|e]; cbn in HA; [subst r1|destruct HA as (g & HF & ->)|subst r1]; cbn [lim_remaining] in H; [rewrite slice_to_min in H; cbn [bind] in H|..]; injection H as <- <-; (split; [exact HT|]);
            do 2 eexists; (split; [reflexivity|]); (split; [reflexivity|]); cbn; [reflexivity|exists (Some g); rewrite E0, HF; split; reflexivity|reflexivity].
    - cbn in H. unfold map_final_expose, map_final_result in H. destruct s as [i w]. cbn [wf_inner wf_fun] in *. destruct (p_expose (pt_producer P t) i) as [[i1 r1]| |] eqn:EC; cbn [bind] in H; try discriminate.
      destruct (IH _ _ _ HU EC) as (l & HT & HC). exists l. destruct (pt_blocked t i).
      + destruct HC as (-> & x & HF & HC). injection HC as ->. cbn in H. destruct w as [h|] eqn:EF; cbn in H; [|discriminate]. injection H as <- <-. split; [exact HT|]. split; [reflexivity|].
        exists (h x). cbn. rewrite HF. split; reflexivity.
      + destruct HC as (r0 & r' & -> & HC & HA). injection HC as <-. destruct r0 as [[x|f]|e]; cbn in HA; [subst r1|destruct HA as (x & HF & ->)|subst r1]; cbn in H;
          [|destruct w as [h|] eqn:EF; cbn in H; [|discriminate]|]; injection H as <- <-; (split; [exact HT|]); do 2 eexists; (split; [reflexivity|]); (split; [reflexivity|]); cbn;
          [reflexivity|exists (h x); rewrite HF; split; reflexivity|reflexivity].
    - cbn in H. unfold invariant_expose, inv_check in H. destruct (inv_active s); [|discriminate].
      destruct (p_expose (pt_producer P t) (inv_inner s)) as [[i1 r1]| |] eqn:EC; cbn in H; try discriminate. destruct r1 as [[x|f]|e]; injection H as <- <-; exact (IH _ _ _ HU EC).
  Qed.
  Lemma pt_consider_calls : forall G (t : ptower T F E G) n s s' r, unscrambled t -> p_consider (pt_producer P t) n s = Ret (s', r) -> calls t s (PConsider n) s' (PAUnit r).
  Proof.
    intros G t n. induction t as [|G m t IH|G B g t IH|G t IH|G]; intros s s' r HU H; cbn [unscrambled] in HU; try contradiction; cbn [pt_state pt_producer pt_base pt_call] in *.
    - exists [(PConsider n, PAUnit r)]. split; [history|]. eexists. split; reflexivity.
    - cbn in H. unfold limit_consider in H. destruct (csub (lim_remaining s) n); cbn [bind] in H; try discriminate H.
      destruct (p_consider (pt_producer P t) n (lim_inner s)) as [[i1 r1]| |] eqn:EC; cbn in H; try discriminate. injection H as <- <-. destruct (IH _ _ _ HU EC) as (l & HT & r0 & -> & HC). injection HC as ->. eexists. split; [exact HT|]. exists r0. split; reflexivity.
    - cbn in H. unfold map_final_consider in H. destruct (p_consider (pt_producer P t) n (wf_inner s)) as [[i1 r1]| |] eqn:EC; cbn in H; try discriminate. injection H as <- <-. destruct (IH _ _ _ HU EC) as (l & HT & r0 & -> & HC). injection HC as ->. eexists. split; [exact HT|]. exists r0. split; reflexivity.
    - cbn in H. unfold invariant_consider, inv_check in H. destruct (inv_active s); [|discriminate]. destruct (inv_exposed s <? n); [discriminate|].
      destruct (csub (inv_exposed s) n); cbn [bind] in H; try discriminate H.
      destruct (p_consider (pt_producer P t) n (inv_inner s)) as [[i1 r1]| |] eqn:EC; cbn in H; try discriminate. injection H as <- <-. exact (IH _ _ _ HU EC).
  Qed.

  (** Only a prefix is shown. *)
  Lemma pt_shown_prefix : forall G (t : ptower T F E G) (s : pt_state S t) xs, exists n, pt_shown t s xs = firstn n xs.
  Proof.
    intros G t. induction t as [|G m t IH|G B g t IH|G t IH|G dbg fuel x0 pat cap t IH]; intros s xs; cbn [pt_shown].
    - exists (length xs). now rewrite firstn_all.
    - destruct (IH (lim_inner s) xs) as (n & ->). exists (Nat.min (lim_remaining s) n). apply firstn_firstn.
    - apply IH.
    - apply IH.
    - apply IH.
  Qed.
  Lemma firstn_prefix : forall {X} k n (xs : list X), k <= length (firstn n xs) -> firstn k (firstn n xs) = firstn k xs.
  Proof. intros X k n xs H. rewrite firstn_firstn. rewrite firstn_length in H. rewrite Nat.min_l by lia. reflexivity. Qed.

  Lemma pt_calls : forall G (t : ptower T F E G) o s s' a, unscrambled t -> (forall buf, o = PBulkProduce buf -> ~ bare_producer t) ->
    p_do (pt_producer P t) o s = Ret (s', a) -> calls t s o s' a.
  Proof.
    intros G t o s s' a HU HB H. destruct o as [| | |n|buf].
    - cbn [p_do] in H. destruct (p_produce (pt_producer P t) s) as [[s1 r]| |] eqn:EC; cbn in H; try discriminate. injection H as <- <-. exact (pt_produce_calls _ _ HU EC).
    - cbn [p_do] in H. destruct (p_slurp (pt_producer P t) s) as [[s1 r]| |] eqn:EC; cbn in H; try discriminate. injection H as <- <-. exact (pt_slurp_calls _ _ HU EC).
    - cbn [p_do] in H. destruct (p_expose (pt_producer P t) s) as [[s1 r]| |] eqn:EC; cbn in H; try discriminate. injection H as <- <-. exact (pt_expose_calls _ _ HU EC).
    - cbn [p_do] in H. destruct (p_consider (pt_producer P t) n s) as [[s1 r]| |] eqn:EC; cbn in H; try discriminate. injection H as <- <-. exact (pt_consider_calls _ _ _ HU EC).
    - specialize (HB _ eq_refl).
      assert (HD : p_bulk_produce (pt_producer P t) buf s = default_bulk_produce (p_expose (pt_producer P t)) (p_consider (pt_producer P t)) buf s)
        by (destruct t; [elim HB; exact Logic.I|reflexivity|reflexivity|reflexivity|contradiction]).
      cbn [p_do] in H. rewrite HD in H. unfold default_bulk_produce in H. clear HD HB.
      destruct (p_expose (pt_producer P t) s) as [[s1 r1]| |] eqn:EC; cbn [bind] in H; try discriminate.
      destruct (pt_expose_calls _ _ HU EC) as (l & HT & HC). cbn [pt_call] in HC |- *. destruct (pt_blocked t s).
      + destruct HC as (-> & g & HF & HC). injection HC as ->. cbn in H. injection H as <- <-. exists []. split; [exact HT|]. split; [reflexivity|]. exists g. split; [exact HF|reflexivity].
      + destruct HC as (r & r' & -> & HC & HA). injection HC as <-. destruct r as [[xs|f]|e]; cbn [pt_answer] in HA.
        * subst r1. destruct (pt_shown_prefix t s xs) as (n & Hn). cbv zeta in H.
          set (k := Nat.min (length (pt_shown t s xs)) (length buf)) in *.
          replace (firstn k (pt_shown t s xs)) with (firstn k xs) in H.
          2:{ rewrite Hn. symmetry. apply firstn_prefix. rewrite <- Hn. unfold k. lia. }
          destruct (p_consider (pt_producer P t) k s1) as [[s2 r2]| |] eqn:EK; cbn [bind] in H; try discriminate.
          destruct (pt_consider_calls _ _ _ HU EK) as (l2 & HT2 & r & -> & HC). injection HC as ->.
          exists ([(PExpose, PASlice (Ok (inl xs)))] ++ [(PConsider k, PAUnit r)]).
          assert (HT3 : p_trace P (pt_base t s) ([(PExpose, PASlice (Ok (inl xs)))] ++ [(PConsider k, PAUnit r)]) (pt_base t s2)) by (eapply p_trace_app; eassumption).
          destruct r as [[]|e]; cbn in H; injection H as <- <-; (split; [exact HT3|]); right; right; exists xs; eexists; split; reflexivity.
        * destruct HA as (g & HF & ->). cbn in H. injection H as <- <-. eexists. split; [exact HT|]. left. exists f, g. split; [reflexivity|]. split; [exact HF|reflexivity].
        * subst r1. cbn in H. injection H as <- <-. eexists. split; [exact HT|]. right. left. exists e. split; reflexivity.
  Qed.
End ProducerTowers.

(** ** The queues of readers and writers *)
Section ReaderQueue.
  Context {S Q T : Type} (Rd : reader S T) (I : queue Q T) (x0 : T) (HI : empty_unchanged I).
  Notation P := (reader_producer Rd I x0).

  Lemma reader_direct : forall o st st' r, q_len I (rs_queue st) = 0 -> p_direct o -> p_do P o st = Ret (st', r) ->
    rs_queue st' = rs_queue st /\ (forall buf, o = PBulkProduce buf -> exists buf' r0, r = PABuf buf' r0 /\ one_read Rd st st' buf buf' r0).
  Proof.
    intros o st st' r HE HD H. destruct (HI _ HE) as (HI1 & _). destruct o as [| | |n|buf]; try contradiction; cbn in H.
    - unfold rd_produce in H. rewrite HI1 in H. cbn [bind] in H. destruct (read_one Rd x0 (rs_reader st)) as [[s1 r1]| |]; cbn in H; try discriminate.
      injection H as <- <-. split; [reflexivity|]. intros b HF. discriminate HF.
    - injection H as <- <-. split; [reflexivity|]. intros b HF. discriminate HF.
    - unfold rd_bulk_produce, read_some, q_is_empty in H. rewrite HE in H. cbn [Nat.eqb] in H.
      destruct (r_read Rd buf (rs_reader st)) as [[s1 [b r1]]| |] eqn:ER; cbn [bind] in H; try discriminate.
      destruct r1 as [[|n]|e]; cbn in H; injection H as <- <-; (split; [reflexivity|]); intros b0 HF; injection HF as <-; do 2 eexists; (split; [reflexivity|]); (eexists; split; [exact ER|reflexivity]).
  Qed.
  Lemma reader_sidesteps : forall h st st', q_len I (rs_queue st) = 0 -> p_trace P st h st' -> Forall (fun or => p_direct (fst or)) h -> rs_queue st' = rs_queue st.
  Proof.
    induction h as [|[o r] h IH]; intros st st' HE HT HF; inversion HT; subst; [reflexivity|]. inversion HF; subst.
    match goal with H : p_do _ _ _ = _ |- _ => destruct (reader_direct _ _ HE ltac:(eassumption) H) as (HQ & _) end.
    rewrite <- HQ. eapply IH; [rewrite HQ; exact HE|eassumption|eassumption].
  Qed.
End ReaderQueue.

Section WriterQueue.
  Context {S Q T : Type} (W : writer S T) (I : queue Q T) (HI : empty_unchanged I) (fuel : nat).
  Notation C := (writer_consumer W I fuel).

  Lemma flushed_empty : forall X st (k : writer_state S Q -> outcome (writer_state S Q * res X io_error)) st' r, q_len I (ws_queue st) = 0 ->
    flushed W I fuel st k = Ret (st', r) -> k st = Ret (st', r).
  Proof.
    intros X st k st' r HE H. destruct (HI _ HE) as (_ & HI2). unfold flushed in H. destruct fuel as [|n]; cbn [flush_internal_buffer bind] in H; [discriminate|].
    rewrite HI2 in H. cbn [bind] in H. destruct st. exact H.
  Qed.
  Lemma writer_direct : forall o st st' r, q_len I (ws_queue st) = 0 -> c_direct o -> c_do C o st = Ret (st', r) ->
    ws_queue st' = ws_queue st /\ (forall buf, o = CBulkConsume buf -> exists r0, r = CANat r0 /\ one_write W st st' buf r0).
  Proof.
    intros o st st' r HE HD H. destruct o as [x|f| | |ys|n|buf]; try contradiction; cbn [c_do] in H.
    - destruct (c_consume C x st) as [[s1 r1]| |] eqn:EC; cbn in H; try discriminate. injection H as <- <-. apply flushed_empty in EC; [|exact HE].
      destruct (write_all W [x] (ws_writer st)) as [[s2 r2]| |]; cbn in EC; try discriminate. injection EC as <- <-. split; [reflexivity|]. intros b HF. discriminate HF.
    - destruct (c_close C f st) as [[s1 r1]| |] eqn:EC; cbn in H; try discriminate. injection H as <- <-. apply flushed_empty in EC; [|exact HE].
      destruct (w_close W (ws_writer st)) as [[s2 r2]| |]; cbn in EC; try discriminate. injection EC as <- <-. split; [reflexivity|]. intros b HF. discriminate HF.
    - destruct (c_flush C st) as [[s1 r1]| |] eqn:EC; cbn in H; try discriminate. injection H as <- <-. apply flushed_empty in EC; [|exact HE].
      destruct (w_flush W (ws_writer st)) as [[s2 r2]| |]; cbn in EC; try discriminate. injection EC as <- <-. split; [reflexivity|]. intros b HF. discriminate HF.
    - destruct (c_bulk_consume C buf st) as [[s1 r1]| |] eqn:EC; cbn in H; try discriminate. injection H as <- <-. apply flushed_empty in EC; [|exact HE].
      destruct (w_write W buf (ws_writer st)) as [[s2 [[|n]|e]]| |] eqn:EW; cbn in EC; try discriminate; injection EC as <- <-; (split; [reflexivity|]); intros b0 HF; injection HF as <-;
        eexists; (split; [reflexivity|]); (eexists; split; [exact EW|]); [eexists; split; [|reflexivity]; reflexivity|reflexivity|reflexivity].
  Qed.
  Lemma writer_sidesteps : forall h st st', q_len I (ws_queue st) = 0 -> c_trace C st h st' -> Forall (fun or => c_direct (fst or)) h -> ws_queue st' = ws_queue st.
  Proof.
    induction h as [|[o r] h IH]; intros st st' HE HT HF; inversion HT; subst; [reflexivity|]. inversion HF; subst.
    match goal with H : c_do _ _ _ = _ |- _ => destruct (writer_direct _ _ HE ltac:(eassumption) H) as (HQ & _) end.
    rewrite <- HQ. eapply IH; [rewrite HQ; exact HE|eassumption|eassumption].
  Qed.
End WriterQueue.

Lemma fixed_empty_unchanged : forall T, empty_unchanged (fixed_queue T).
Proof. intros T q H. cbn in H |- *. unfold fixed_dequeue, fixed_expose_items. rewrite H. split; reflexivity. Qed.
Lemma static_empty_unchanged : forall T N, empty_unchanged (@static_queue T N).
Proof. intros T N q H. cbn in H |- *. unfold static_dequeue, static_expose_items. rewrite H. split; reflexivity. Qed.

(** ** The calls of readers *)
Lemma read_one_calls : forall S T (Rd : reader S T) x0 s s' r, reads_in_place Rd -> read_one Rd x0 s = Ret (s', r) ->
  exists b r0, r_read Rd [x0] s = Ret (s', (b, r0)) /\ read_item b r0 (PAItem r).
Proof.
  intros S T Rd x0 s s' r HP H. unfold read_one, read_exact in H. cbn [length read_exact_loop bind] in H.
  destruct (r_read Rd [x0] s) as [[s1 [b r0]]| |] eqn:E; cbn [bind] in H; try discriminate.
  destruct (HP _ _ _ _ _ E) as [HL HN]. exists b, r0. destruct r0 as [[|n]|e].
  - cbn in H. injection H as <- <-. split; reflexivity.
  - specialize (HN _ eq_refl). cbn in HN, HL. destruct b as [|x [|]]; try discriminate. assert (n = 0) by lia. subst n. cbn in H. injection H as <- <-.
    split; [reflexivity|]. exists x. split; reflexivity.
  - cbn in H. destruct e as [[| |m] p]; cbn in H; injection H as <- <-; split; reflexivity.
Qed.

Section BufReaderCalls.
  Context {S T : Type} (Rd : buf_reader S T) (x0 : T) (HP : reads_in_place Rd).
  Lemma br_calls : forall o s s' a, p_do (buf_reader_producer Rd x0) o s = Ret (s', a) -> exists l, br_makes Rd s l s' /\ br_call x0 o l a.
  Proof.
    intros o s s' a H. destruct o as [| | |n|buf]; cbn [p_do] in H.
    - destruct (p_produce (buf_reader_producer Rd x0) s) as [[s1 r]| |] eqn:E; cbn in H; try discriminate. injection H as <- <-.
      destruct (@read_one_calls _ _ _ _ _ _ _ HP E) as (b & r0 & ER & HA). exists [RcRead [x0] b r0]. split; [eapply br_makes_read; [exact ER|apply br_makes_nil]|].
      exists b, r0. split; [reflexivity|exact HA].
    - cbn in H. unfold br_slurp in H. destruct (r_fill_buf Rd s) as [[s1 r]| |] eqn:E; cbn in H; try discriminate.
      exists [RcFill r]. destruct r as [ys|e]; cbn in H; injection H as <- <-; (split; [eapply br_makes_fill; [exact E|apply br_makes_nil]|]); eexists; split; reflexivity.
    - cbn in H. unfold br_expose_items in H. destruct (r_fill_buf Rd s) as [[s1 r]| |] eqn:E; cbn in H; try discriminate. destruct r as [[|y ys]|e]; cbn in H.
      + injection H as <- <-. eexists. split; [eapply br_makes_fill; [exact E|apply br_makes_nil]|]. right. left. split; reflexivity.
      + destruct (r_fill_buf Rd s1) as [[s2 r]| |] eqn:E2; cbn in H; try discriminate.
        exists [RcFill (Ok (y :: ys)); RcFill r].
        destruct r as [zs|e]; cbn in H; injection H as <- <-; (split; [eapply br_makes_fill; [exact E|eapply br_makes_fill; [exact E2|apply br_makes_nil]]|]); right; right; exists y, ys; eexists; split; reflexivity.
      + injection H as <- <-. eexists. split; [eapply br_makes_fill; [exact E|apply br_makes_nil]|]. left. exists e. split; reflexivity.
    - cbn in H. unfold br_consider_produced in H. destruct (r_consume Rd n s) as [s1| |] eqn:E; cbn in H; try discriminate. injection H as <- <-.
      eexists. split; [eapply br_makes_consume; [exact E|apply br_makes_nil]|]. split; reflexivity.
    - cbn in H. unfold read_some in H. destruct (r_read Rd buf s) as [[s1 [b r]]| |] eqn:E; cbn in H; try discriminate.
      exists [RcRead buf b r]. destruct r as [[|n]|e]; cbn in H; injection H as <- <-; (split; [eapply br_makes_read; [exact E|apply br_makes_nil]|]); do 2 eexists; split; reflexivity.
  Qed.
End BufReaderCalls.

Section ReaderCalls.
  Context {S Q T : Type} (Rd : reader S T) (I : queue Q T) (x0 : T) (c : nat) (RQ : Q -> list T -> nat -> list T -> Prop).
  Context (HP : reads_in_place Rd) (LQ : lawful_queue I c RQ) (Hc : 1 <= c).

  Lemma rd_calls : forall o st items k w st' a, RQ (rs_queue st) items k w -> (forall n, o = PConsider n -> n <= length items) ->
    p_do (reader_producer Rd I x0) o st = Ret (st', a) ->
    exists l items' k' w', r_makes Rd (rs_reader st) l (rs_reader st') /\ rd_call x0 c items o l a items' /\ RQ (rs_queue st') items' k' w'.
  Proof.
    intros o [s q] items k w st' a HQ HO H. cbn [rs_queue rs_reader] in *. pose proof (lq_len LQ HQ) as HL.
    assert (HE : q_is_empty I q = match items with [] => true | _ => false end) by (unfold q_is_empty; rewrite HL; now destruct items).
    destruct o as [| | |n|buf]; cbn [p_do] in H.
    - cbn in H. unfold rd_produce in H. cbn [rs_queue rs_reader] in H. destruct items as [|x rest].
      + rewrite (lq_dequeue_empty LQ HQ) in H. cbn [bind] in H. destruct (read_one Rd x0 s) as [[s1 r]| |] eqn:E; cbn in H; try discriminate. injection H as <- <-.
        destruct (@read_one_calls _ _ _ _ _ _ _ HP E) as (b & r0 & ER & HA). exists [([x0], b, r0)], [], k, w. cbn [rs_queue rs_reader].
        split; [eapply r_makes_read; [exact ER|apply r_makes_nil]|]. split; [split; [reflexivity|exists b, r0; split; [reflexivity|exact HA]]|exact HQ].
      + destruct (lq_dequeue LQ HQ) as (q' & E & A'). rewrite E in H. cbn in H. injection H as <- <-.
        exists [], rest, k, w. split; [apply r_makes_nil|]. split; [cbn; auto|exact A'].
    - cbn in H. unfold rd_slurp in H. cbn in H. injection H as <- <-. exists [], items, k, w. split; [apply r_makes_nil|]. split; [destruct items; cbn; auto|exact HQ].
    - cbn in H. unfold rd_expose_items in H. cbn [rs_queue rs_reader] in H. rewrite HE in H. destruct items as [|y items].
      + destruct (lq_expose_slots LQ HQ) as (q1 & n & E1 & N1 & N2 & A1); [cbn; lia|]. rewrite E1 in H. cbn [bind expect] in H.
        destruct (r_read Rd (repeat x0 n) s) as [[s1 [b r]]| |] eqn:ER; cbn [bind] in H; try discriminate.
        destruct (@HP _ _ _ _ _ ER) as [HLb HN]. rewrite repeat_length in *. exists [(repeat x0 n, b, r)].
        assert (HM : r_makes Rd s [(repeat x0 n, b, r)] s1) by (eapply r_makes_read; [exact ER|apply r_makes_nil]).
        destruct r as [[|m]|e].
        * cbn in H. injection H as <- <-. exists [], n, []. split; [exact HM|]. split.
          -- exists n, b, (Ok 0). split; [cbn in N2; lia|]. split; [reflexivity|]. split; reflexivity.
          -- cbn [rs_queue]. pose proof (lq_write LQ [] A1 (Nat.le_0_l n)) as A2. exact A2.
        * specialize (HN _ eq_refl). cbn [Nat.eqb] in H.
          assert (HF : length (firstn (Datatypes.S m) b) = Datatypes.S m) by (rewrite firstn_length; lia).
          assert (A2 : RQ (q_write I (firstn (Datatypes.S m) b) q1) [] n (overlay (firstn (Datatypes.S m) b) [])) by (apply (lq_write LQ _ A1); lia).
          rewrite overlay_nil in A2. destruct (lq_consider_enqueued LQ (Datatypes.S m) A2) as (q3 & E3 & A3); [lia|].
          rewrite E3 in H. cbn [bind] in H. cbn [app] in A3. rewrite firstn_firstn, Nat.min_id in A3.
          destruct (lq_expose_items LQ A3) as (q4 & ys & rest & E4 & N4 & X4 & A4).
          { intros HF0. rewrite HF0 in HF. discriminate HF. }
          rewrite E4 in H. cbn [bind expect] in H. injection H as <- <-.
          do 3 eexists. split; [exact HM|]. split; [|exact A4].
          exists n, b, (Ok (Datatypes.S m)). split; [cbn in N2; lia|]. split; [reflexivity|]. split; [reflexivity|]. exists ys, rest. auto.
        * cbn in H. injection H as <- <-. exists [], n, []. split; [exact HM|]. split; [|exact A1].
          exists n, b, (Err e). split; [cbn in N2; lia|]. split; [reflexivity|]. split; reflexivity.
      + destruct (lq_expose_items LQ HQ) as (q4 & ys & rest & E4 & N4 & X4 & A4); [discriminate|].
        rewrite E4 in H. cbn [bind expect] in H. injection H as <- <-. exists [], (y :: items), k, w. split; [apply r_makes_nil|]. split; [|exact A4].
        split; [reflexivity|]. split; [reflexivity|]. exists ys, rest. auto.
    - cbn in H. unfold rd_consider_produced in H. cbn [rs_queue rs_reader] in H.
      destruct (lq_consider_dequeued LQ n HQ) as (q' & E & A'); [auto|]. rewrite E in H. cbn in H. injection H as <- <-.
      exists [], (skipn n items), k, w. split; [apply r_makes_nil|]. split; [destruct items; cbn; auto|exact A'].
    - cbn in H. unfold rd_bulk_produce in H. cbn [rs_queue rs_reader] in H. rewrite HE in H. destruct items as [|y items].
      + unfold read_some in H. destruct (r_read Rd buf s) as [[s1 [b r]]| |] eqn:ER; cbn [bind] in H; try discriminate.
        exists [(buf, b, r)], [], k, w. assert (HM : r_makes Rd s [(buf, b, r)] s1) by (eapply r_makes_read; [exact ER|apply r_makes_nil]).
        destruct r as [[|m]|e]; cbn in H; injection H as <- <-; (split; [exact HM|]); (split; [|exact HQ]); (split; [reflexivity|]); do 2 eexists; split; reflexivity.
      + destruct (lawful_bulk_dequeue LQ buf HQ) as (q' & n & E & H1 & H2 & H3 & A'). rewrite E in H. cbn [bind] in H. injection H as <- <-.
        exists [], (skipn n (y :: items)). do 2 eexists. split; [apply r_makes_nil|]. split; [|exact A'].
        split; [reflexivity|]. exists n. split; [exact H1|]. split; [exact H2|]. split; [|split; reflexivity].
        split; [intros HF; apply H3 in HF; destruct HF as [HF|HF]; [discriminate HF|exact HF]|intros HF; apply H3; auto].
  Qed.
End ReaderCalls.

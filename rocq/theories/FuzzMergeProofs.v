(** The fuzz target of the merge adaptor. *)
From Coq Require Import Bool List Arith Lia.
From Verif Require Import Prelude ListFacts QueueModel QueueSpec QueueProofs Traits Contracts ContractFacts PipeSpec PipeProofs
  BasicModel BasicSpec BasicProofs AdaptorModel AdaptorSpec BufferedSpec BufferedFacts ScramblerModel ScramblerProofs
  FuzzModel FuzzSpec FuzzProofs
  MergeModel MergeSpec MergeProofs PropMerge.
Import ListNotations.

Lemma lawful_yields : forall S T F E (P : bulk_producer S T F E) R D, lawful_producer P R D ->
  forall xs s l k, R s xs l k -> p_yields P s xs l.
Proof.
  intros S T F E P R D [HL _]. induction xs as [|x xs IH]; intros s l k H.
  - destruct (lp_produce_last HL H) as (s' & E1 & _). destruct l as [f|e]; econstructor; exact E1.
  - destruct (lp_produce HL H) as (s' & E1 & H'). econstructor; [exact E1|]. exact (IH _ _ _ H').
Qed.

Lemma interleave_one : forall X (xs ys : list X) z, interleave xs ys [z] -> (xs = [z] /\ ys = []) \/ (xs = [] /\ ys = [z]).
Proof.
  intros X xs ys z H. inversion H as [|? ? ? ? H'|? ? ? ? H']; subst; inversion H'; subst; auto.
Qed.

Lemma interleave_none : forall X (xs ys : list X), interleave xs ys [] -> xs = [] /\ ys = [].
Proof. intros X xs ys H. inversion H. auto. Qed.

Lemma index_app : forall T (l l' : list T) x, index (length l) (l ++ x :: l') = Ret x.
Proof.
  intros T l l' x. apply index_skipn with (rest := l'). rewrite skipn_app, skipn_all, Nat.sub_diag. reflexivity.
Qed.

Section Target.
  Variables (p1_items p2_items : list nat) (p1_last p2_last : res nat nat).
  Notation tpp := (@test_producer (nat * bool) nat nat).
  Notation ev := (event (nat * bool) nat nat).

  (** [o] items of one side have been emitted, the events [X] have not. *)
  Definition at_offset (b : bool) (xs : list nat) (last : res nat nat) (o : nat) (X : list ev) : Prop :=
    exists X0, stream (map (fun item => (item, b)) xs) last = X0 ++ X /\ length (items X0) = o.

  Lemma at_offset_item : forall b xs last o X1 X x c, at_offset b xs last o (X1 ++ X) ->
    items X1 = [(x, c)] -> c = b /\ index o xs = Ret x /\ at_offset b xs last (o + 1) X.
  Proof.
    intros b xs last o X1 X x c (X0 & E1 & E2) HX1.
    assert (Hi : map (fun item => (item, b)) xs = items X0 ++ (x, c) :: items X).
    { rewrite <- (items_stream _ _ _ (map (fun item => (item, b)) xs) last), E1, !items_app, HX1. reflexivity. }
    apply map_eq_app in Hi. destruct Hi as (l1 & l2 & -> & H1 & H2). apply map_eq_cons in H2.
    destruct H2 as (y & l3 & -> & H2 & H3). injection H2 as -> <-. split; [reflexivity|].
    assert (Ho : o = length l1) by (rewrite <- E2, <- H1, map_length; reflexivity).
    split; [rewrite Ho; apply index_app|]. exists (X0 ++ X1). rewrite <- app_assoc. split; [exact E1|].
    rewrite items_app, HX1, app_length. cbn. lia.
  Qed.

  Lemma at_offset_none : forall b xs last o X1 X, at_offset b xs last o (X1 ++ X) -> items X1 = [] -> at_offset b xs last o X.
  Proof.
    intros b xs last o X1 X (X0 & E1 & E2) HX1. exists (X0 ++ X1). rewrite <- app_assoc. split; [exact E1|].
    rewrite items_app, HX1, app_nil_r. exact E2.
  Qed.

  Lemma at_offset_end : forall b xs last o, at_offset b xs last o [] -> o = length xs.
  Proof.
    intros b xs last o (X0 & E1 & E2). rewrite app_nil_r in E1. rewrite <- E2, <- E1, items_stream, map_length. reflexivity.
  Qed.

  Lemma at_offset_last : forall b xs last o X l, at_offset b xs last o X -> In (Last l) X -> l = last.
  Proof.
    intros b xs last o X l (X0 & E1 & _) H. apply (stream_in _ _ _ (map (fun item => (item, b)) xs) last l).
    rewrite E1. apply in_app_iff. auto.
  Qed.

  Lemma merge_loop_passes : forall fuel sched m X Y o1 o2, merge_inv tpp tpp m X Y ->
    at_offset true p1_items p1_last o1 X -> at_offset false p2_items p2_last o2 Y ->
    length (items X) + length (items Y) < fuel ->
    exists r, fuzz_merge_loop (merge_produce tpp tpp) p1_items p2_items p1_last p2_last fuel sched m o1 o2 = Ret r /\
      (2 * (length (items X) + length (items Y) + 1) <= rounds sched -> r = Some tt).
  Proof.
    induction fuel as [|fuel IH]; intros sched m X Y o1 o2 HI HX HY Hf; [lia|]. cbn [fuzz_merge_loop].
    destruct (merge_produce_spec sched HI) as (m' & sched' & r & X1 & Y1 & X' & Y' & Z & E1 & -> & -> & HZ & Hr).
    assert (Hp : 2 <= rounds sched -> r <> None /\ rounds sched <= rounds sched' + 2).
    { intros H2. destruct (@merge_produce_progress _ _ _ _ _ tpp tpp sched m _ _ HI) as (m2 & sched2 & r2 & E2 & H3).
      - destruct (produce_future1 m), (produce_future2 m); lia.
      - rewrite E1 in E2. injection E2 as <- <- ->. split; [discriminate|].
        destruct (produce_future1 m), (produce_future2 m); lia. }
    rewrite E1. cbn [bind]. pose proof (il_items _ _ _ _ _ _ HZ) as Hit.
    assert (Hl : forall Z0 l, Z = Z0 ++ [Last l] -> items Z0 = [] -> items X1 = [] /\ items Y1 = [] /\ (l = p1_last \/ l = p2_last)).
    { intros Z0 l -> H0. rewrite items_app, H0 in Hit. apply interleave_none in Hit. destruct Hit as [A B]. split; [exact A|].
      split; [exact B|]. assert (Hin : In (Last l) (Z0 ++ [Last l])) by (apply in_app_iff; cbn; auto).
      apply (il_in _ _ _ _ _ HZ) in Hin. destruct Hin as [Hin|Hin].
      - left. eapply at_offset_last; [exact HX|]. apply in_app_iff. auto.
      - right. eapply at_offset_last; [exact HY|]. apply in_app_iff. auto. }
    rewrite !items_app, !app_length in *. destruct r as [[[[x c]|f]|e]|].
    - destruct Hr as (HI' & Hx & _). rewrite Hx in Hit. apply interleave_one in Hit. destruct Hit as [[A B]|[A B]]; rewrite A, B in *.
      + destruct (at_offset_item _ _ _ _ _ _ _ _ HX A) as (-> & Hidx & HX'). rewrite Hidx. cbn [bind].
        rewrite assert_eq_refl. cbn [bind]. cbn [length] in *.
        destruct (IH sched' m' X' Y' (o1 + 1) o2 HI' HX' (at_offset_none _ _ _ _ _ _ HY B)) as (r & -> & H); [lia|].
        exists r. split; [reflexivity|]. intros Hr. apply H. destruct Hp; lia.
      + destruct (at_offset_item _ _ _ _ _ _ _ _ HY B) as (-> & Hidx & HY'). rewrite Hidx. cbn [bind].
        rewrite assert_eq_refl. cbn [bind]. cbn [length] in *.
        destruct (IH sched' m' X' Y' o1 (o2 + 1) HI' (at_offset_none _ _ _ _ _ _ HX A) HY') as (r & -> & H); [lia|].
        exists r. split; [reflexivity|]. intros Hr. apply H. destruct Hp; lia.
    - destruct Hr as (-> & -> & Z0 & HZ0 & H0 & _). destruct (Hl _ _ HZ0 H0) as (A & B & H).
      rewrite (at_offset_end _ _ _ _ (at_offset_none _ _ _ _ _ _ HX A)), (at_offset_end _ _ _ _ (at_offset_none _ _ _ _ _ _ HY B)).
      rewrite !assert_eq_refl. cbn [bind].
      assert (Ha : (eqb (Ok f) p1_last || eqb (Ok f) p2_last) = true).
      { apply orb_true_iff. rewrite !eqb_true. exact H. }
      rewrite Ha. exists (Some tt). split; reflexivity.
    - destruct Hr as (Z0 & HZ0 & H0 & _). destruct (Hl _ _ HZ0 H0) as (A & B & H).
      assert (Ha : (eqb (Err e) p1_last || eqb (Err e) p2_last) = true).
      { apply orb_true_iff. rewrite !eqb_true. exact H. }
      rewrite Ha. exists (Some tt). split; reflexivity.
    - exists None. split; [reflexivity|]. intros H. destruct Hp as [Hp _]; [lia|congruence].
  Qed.
End Target.

Lemma merge_passes : forall fuel sched p1_items p1_last p1_sizes p1_pattern p2_items p2_last p2_sizes p2_pattern,
  Forall (fun n => 1 <= n) p1_sizes -> Forall (fun n => 1 <= n) p2_sizes ->
  length p1_items + length p2_items < fuel ->
  exists r, fuzz_merge fuel sched p1_items p1_last p1_sizes p1_pattern p2_items p2_last p2_sizes p2_pattern = Ret r /\
    (2 * (length p1_items + length p2_items + 1) <= rounds sched -> r = Some tt).
Proof.
  intros fuel sched xs l1 z1 q1 ys l2 z2 q2 H1 H2 Hf. unfold fuzz_merge.
  set (p1 := test_producer_build _ _ _ (Some q1)). set (p2 := test_producer_build _ _ _ (Some q2)).
  assert (Y1 : p_yields test_producer p1 (map (fun item => (item, true)) xs) l1).
  { eapply lawful_yields; [apply test_producer_lawful|]. apply tp_rel_build; exact H1. }
  assert (Y2 : p_yields test_producer p2 (map (fun item => (item, false)) ys) l2).
  { eapply lawful_yields; [apply test_producer_lawful|]. apply tp_rel_build; exact H2. }
  destruct (@merge_loop_passes xs ys l1 l2 fuel sched _ _ _ 0 0 (merge_new_inv Y1 Y2)) as (r & E1 & H).
  - exists []. auto.
  - exists []. auto.
  - rewrite !items_stream, !map_length. exact Hf.
  - exists r. split; [exact E1|]. rewrite !items_stream, !map_length in H. exact H.
Qed.

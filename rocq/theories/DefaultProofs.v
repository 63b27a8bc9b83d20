(** Proofs about the collecting consumers with any [Default]. *)
From Coq Require Import Bool List Arith Lia.
From Verif Require Import Prelude ListFacts Traits Contracts ContractFacts BasicModel BasicSpec BasicProofs AdaptorModel AdaptorSpec AdaptorProofs
  CloneModel CloneSpec CloneProofs ClosureModel ClosureSpec CloneScramblerSpec CloneSinkSpec DefaultModel DefaultSpec.
Import ListNotations.
Set Implicit Arguments.

Section Calls.
  Context {W T : Type} (default : W -> W * option T) (keep : nat -> nat).

  Lemma makes_trans : forall w w1 w2, makes default w w1 -> makes default w1 w2 -> makes default w w2.
  Proof. intros w w1 w2 H. induction H; intros H2; auto. econstructor; eauto. Qed.

  Lemma makes_trips : forall w w1 w2, makes default w w1 -> trips default w1 w2 -> trips default w w2.
  Proof. intros w w1 w2 H. induction H; intros H2; auto. eapply trips_later; eauto. Qed.

  Lemma default_each_ok : forall n w w' ys b, default_each default n w = (w', (ys, b)) ->
    if b then makes default w w' /\ length ys = n else trips default w w'.
  Proof.
    induction n as [|n IH]; cbn; intros w w' ys b H.
    - injection H as <- <- <-. split; [constructor|reflexivity].
    - destruct (default w) as [w1 [y|]] eqn:E1.
      + destruct (default_each default n w1) as [w2 [zs c]] eqn:E2. injection H as <- <- <-.
        apply IH in E2. destruct c.
        * destruct E2 as [E2 El]. split; [econstructor; eauto|cbn; lia].
        * eapply trips_later; eauto.
      + injection H as <- <- <-. now constructor.
  Qed.

  Lemma resize_with_ok : forall n v w w' v' b, length v <= n -> resize_with default keep n v w = (w', (v', b)) ->
    exists ys, v' = v ++ ys /\ if b then makes default w w' /\ length v' = n else trips default w w'.
  Proof.
    intros n v w w' v' b Hn H. unfold resize_with in H.
    destruct (default_each default (n - length v) w) as [w1 [ys c]] eqn:E1. apply default_each_ok in E1.
    destruct c; injection H as <- <- <-.
    - destruct E1 as [E1 El]. exists ys. rewrite firstn_all2 by lia. splits; auto. rewrite app_length. lia.
    - eexists. split; [reflexivity|exact E1].
  Qed.

  Lemma iv_rel_more : forall (s : into_vec T) log k x ys, iv_rel s log k x -> iv_rel (mk_into_vec (iv_v s ++ ys) (iv_consumed s)) log k x.
  Proof.
    intros [v c] log k x ys (H1 & H2 & H3 & H4). cbn in *. unfold iv_rel; cbn. rewrite app_length. splits; auto; try lia.
    rewrite firstn_app. replace (length log + length x - length v) with 0 by lia. now rewrite app_nil_r.
  Qed.

  Lemma make_space_ok : forall (s : into_vec T) log k x w, iv_rel s log k x ->
    exists s' w' b, into_vec_make_space_if_needed_u default keep s w = (s', w', b) /\ iv_rel s' log 0 [] /\
      (exists ys, iv_v s' = iv_v s ++ ys) /\
      if b then makes default w w' /\ length log < length (iv_v s') else trips default w w'.
  Proof.
    intros s log k x w H. pose proof H as (H1 & H2 & H3 & H4). unfold into_vec_make_space_if_needed_u.
    destruct (Nat.eqb_spec (iv_consumed s) (length (iv_v s))) as [He|He].
    - destruct (resize_with default keep (iv_consumed s * 2 + 1) (iv_v s) w) as [w' [v' b]] eqn:E1.
      apply resize_with_ok in E1 as (ys & -> & E1); [|lia]. do 3 eexists. split; [reflexivity|].
      split; [exact (iv_rel_forget (iv_rel_more ys H))|]. split; [now exists ys|]. destruct b; auto. cbn [iv_v]. destruct E1. split; auto. lia.
    - exists s, w, true. splits; [reflexivity|exact (iv_rel_forget H)| |constructor|lia]. exists []. now rewrite app_nil_r.
  Qed.

  Lemma iv_put : forall (s : into_vec T) log x, iv_rel s log 0 [] -> length log < length (iv_v s) ->
    exists v, index_set (iv_consumed s) x (iv_v s) = Ret v /\ iv_rel (mk_into_vec v (iv_consumed s + 1)) (log ++ [x]) 0 [].
  Proof.
    intros s log x (H1 & H2 & H3 & H4) Hl. rewrite index_set_ok by lia. eexists; split; [reflexivity|].
    unfold iv_rel; cbn [iv_v iv_consumed]. rewrite app_length, length_blit; cbn [length]; try lia. splits; auto; try lia.
    cbn in H4. rewrite Nat.add_0_r, app_nil_r in *. rewrite H1. unfold blit. rewrite H4.
    cbn [app length]. replace (length log + 1) with (length (log ++ [x])) by (rewrite app_length; reflexivity).
    change (log ++ x :: skipn (length (log ++ [x])) (iv_v s)) with (log ++ [x] ++ skipn (length (log ++ [x])) (iv_v s)).
    rewrite app_assoc, firstn_app, firstn_all, Nat.sub_diag. cbn. apply app_nil_r.
  Qed.

  Lemma iv_consume_u_ok : forall (s : into_vec T) log k x w y, iv_rel s log k x ->
    (exists s' w', into_vec_consume_u default keep y s w = Ret (s', w', Done (Ok tt)) /\ makes default w w' /\ iv_rel s' (log ++ [y]) 0 []) \/
    (exists s' w', into_vec_consume_u default keep y s w = Ret (s', w', Unwound) /\ trips default w w' /\ iv_rel s' log 0 []).
  Proof.
    intros s log k x w y H. destruct (make_space_ok w H) as (s1 & w1 & b & E1 & H1 & _ & Hb).
    unfold into_vec_consume_u. rewrite E1. destruct b.
    - left. destruct Hb as [Hm Hl]. destruct (iv_put y H1 Hl) as (v & E2 & H2). rewrite E2. cbn [bind]. do 2 eexists. eauto.
    - right. do 2 eexists. eauto.
  Qed.

  Lemma iv_expose_u_ok : forall (s : into_vec T) log k x w, iv_rel s log k x ->
    (exists s' w' n, into_vec_expose_u default keep s w = Ret (s', w', Done (Ok n)) /\ makes default w w' /\ 1 <= n /\
       n = length (iv_v s') - length log /\ length (iv_v s) <= length (iv_v s') /\ iv_rel s' log n []) \/
    (exists s' w', into_vec_expose_u default keep s w = Ret (s', w', Unwound) /\ trips default w w' /\ iv_rel s' log 0 []).
  Proof.
    intros s log k x w H. destruct (make_space_ok w H) as (s1 & w1 & b & E1 & H1 & (ys & Hys) & Hb).
    unfold into_vec_expose_u. rewrite E1. destruct b.
    - left. destruct Hb as [Hm Hl]. pose proof H1 as (I1 & I2 & I3 & I4). rewrite slice_from_ok by lia. cbn [bind].
      do 3 eexists. split; [reflexivity|]. split; [exact Hm|]. rewrite skipn_length, I1.
      splits; auto; try lia; [rewrite Hys, app_length; lia|]. unfold iv_rel. splits; auto; cbn; lia.
    - right. do 2 eexists. eauto.
  Qed.

  Lemma into_vec_takes : takes default (into_vec_u default keep) (collect_machine T unit infallible) (fun a => a) (@iv_rel T) (@iv_end T).
  Proof.
    constructor.
    - intros s a k v (H1 & H2 & H3 & H4). exact H3.
    - intros s a k v H. exact (iv_rel_forget H).
    - intros s a k v x w H. exact (iv_consume_u_ok w x H).
    - intros s a k v w H. destruct (iv_expose_u_ok w H) as [(s' & w' & n & E1 & Hm & Hn & _ & _ & HR)|H1]; [left|right; right; exact H1].
      exists s', w', n. auto.
    - intros s a k v f H. exists s. split; [reflexivity|]. exact (iv_rel_forget H).
    - intros s a k v H. exists s. split; [reflexivity|exact H].
    - intros s a k v ys H Hy. exact (iv_write_ok ys H Hy).
    - intros s a k v n H Hk Hn. destruct (iv_consume_slots_ok H Hn) as (s' & E1 & HR).
      exists s', (a ++ firstn n v). rewrite collect_feed, firstn_length, Nat.min_l by lia. auto.
  Qed.

  (** ** TestConsumer *)
  Section TestConsumer.
    Context {F E : Type} (error : E).

    Lemma tc_grow_u_ok : forall fuel min_len (i : into_vec T) log k x w, iv_rel i log k x ->
      1 <= fuel -> min_len + length log < fuel + length (iv_v i) ->
      exists i' w' b, tc_grow_u default keep fuel min_len i w = Ret (i', w', b) /\ iv_rel i' log 0 [] /\
        if b then makes default w w' /\ min_len <= length (iv_v i') - length log else trips default w w'.
    Proof.
      induction fuel as [|fuel IH]; intros min_len i log k x w HR Hf1 Hf; cbn [tc_grow_u]; [lia|].
      pose proof HR as (H1 & H2 & H3 & H4). unfold into_vec_remaining_slots. rewrite csub_ok by lia. cbn [bind].
      rewrite H1. destruct (Nat.ltb_spec (length (iv_v i) - length log) min_len) as [Hlt|Hge].
      - unfold into_vec_make_space_even_if_not_needed_u.
        destruct (resize_with default keep (length (iv_v i) * 2 + 1) (iv_v i) w) as [w1 [v1 b]] eqn:E1.
        apply resize_with_ok in E1 as (ys & -> & E1); [|lia]. destruct b.
        + destruct E1 as [Hm Hl].
          destruct (IH min_len _ log k x w1 (iv_rel_more ys HR)) as (i' & w' & b & E2 & HR' & Hb); [lia|cbn [iv_v]; lia|].
          exists i', w', b. splits; auto. destruct b.
          * destruct Hb. split; auto. eapply makes_trans; eauto.
          * eapply makes_trips; eauto.
        + do 3 eexists. split; [reflexivity|]. split; [exact (iv_rel_forget (iv_rel_more ys HR))|exact E1].
      - exists i, w, true. splits; auto; [exact (iv_rel_forget HR)|constructor].
    Qed.

    Lemma tc_rel_inner : forall (s : test_consumer_state T F E) a k v i n, tc_rel error s a k v -> iv_rel i (t_log a) n [] -> n <= t_left a ->
      tc_rel error (tc_set_inner i s) a n [].
    Proof.
      intros s a k v i n (H1 & H2 & H3 & H4 & H5 & H6 & H7 & H8) Hi Hn. unfold tc_rel; cbn. splits; auto.
    Qed.

    Lemma tc_consume_u_ok : forall (s : test_consumer_state T F E) a k v x w, tc_rel error s a k v ->
      (exists s' w', test_consumer_consume_u default keep x s w = Ret (s', w', Done (snd (m_step (failing_machine T F error) x a))) /\ makes default w w' /\
         match m_step (failing_machine T F error) x a with (a', Ok _) => tc_rel error s' a' 0 [] | (a', Err _) => tc_end error s' a' end) \/
      (exists s' w', test_consumer_consume_u default keep x s w = Ret (s', w', Unwound) /\ trips default w w' /\ tc_rel error s' a 0 []).
    Proof.
      intros s a k v x w H. destruct (tc_yield_ok H) as (s1 & E1 & H' & _). clear H.
      unfold test_consumer_consume_u. rewrite E1. cbn [bind m_step failing_machine].
      destruct (t_left a) as [|n] eqn:El.
      - left. destruct (tc_check_err H' El) as (s2 & E2 & HD). rewrite E2. cbn [bind]. exists s2, w. splits; auto. constructor.
      - rewrite (tc_check_ok H') by lia. cbn [bind].
        pose proof H' as (H1 & H2 & H3 & H4 & H5 & H6 & H7 & H8).
        destruct (iv_consume_u_ok w x H1) as [(i & w' & E2 & Hm & HR)|(i & w' & E2 & Ht & HR)]; rewrite E2; cbn [bind].
        + left. rewrite csub_ok by lia. cbn [bind]. do 2 eexists; split; [reflexivity|]. split; [exact Hm|].
          unfold tc_rel; cbn. splits; auto; lia.
        + right. do 2 eexists; split; [reflexivity|]. split; [exact Ht|]. eapply tc_rel_inner; eauto; lia.
    Qed.

    Lemma tc_expose_u_ok : forall (s : test_consumer_state T F E) a k v w, tc_rel error s a k v -> 1 <= t_left a ->
      (exists s' w' n, test_consumer_expose_u default keep s w = Ret (s', w', Done (Ok n)) /\ makes default w w' /\ 1 <= n /\ tc_rel error s' a n []) \/
      (exists s' w', test_consumer_expose_u default keep s w = Ret (s', w', Unwound) /\ trips default w w' /\ tc_rel error s' a 0 []).
    Proof.
      intros s a k v w H Hl. destruct (tc_yield_ok H) as (s1 & E1 & H' & _). clear H.
      unfold test_consumer_expose_u. rewrite E1. cbn [bind]. rewrite (tc_check_ok H' Hl). cbn [bind].
      pose proof H' as (H1 & H2 & H3 & H4 & H5 & H6 & H7 & H8).
      assert (HX : forall mx sz, (match mx with Some n => 1 <= n | None => True end) -> sz_ok sz ->
        exists s' w' (r : caught (res nat E)),
          (let s := mk_tc (tc_inner s1) (tc_fin s1) (tc_error s1) (tc_left s1) sz (tc_yielder s1) in
           let min_len := min_opt 2048 mx in
           let* (i, w, b) := tc_grow_u default keep (min_len + 1) min_len (tc_inner s) w in
           if b then
             let* (i, w, r) := into_vec_expose_u default keep i w in
             match r with
             | Unwound => Ret (tc_set_inner i s, w, Unwound)
             | Done (Ok slots) => Ret (tc_set_inner i s, w, Done (Ok (Nat.min (min_opt slots mx) (tc_left s))))
             | Done (Err _) => Panic
             end
           else Ret (tc_set_inner i s, w, Unwound)) = Ret (s', w', r) /\
          match r with
          | Done (Ok n) => makes default w w' /\ 1 <= n /\ tc_rel error s' a n []
          | Done (Err _) => False
          | Unwound => trips default w w' /\ tc_rel error s' a 0 []
          end).
      { intros mx sz Hmx Hszok. cbv zeta. cbn [tc_inner tc_left].
        set (s2 := mk_tc (tc_inner s1) (tc_fin s1) (tc_error s1) (tc_left s1) sz (tc_yielder s1)).
        assert (H2' : tc_rel error s2 a k v) by (unfold tc_rel, s2; cbn; splits; auto).
        destruct (@tc_grow_u_ok (min_opt 2048 mx + 1) (min_opt 2048 mx) (tc_inner s1) (t_log a) k v w H1) as (i & w1 & b & E2 & Hi & Hb).
        { lia. }
        { destruct H1 as (? & ? & _). lia. }
        rewrite E2. cbn [bind]. destruct b.
        - destruct Hb as [Hm Hmin].
          destruct (iv_expose_u_ok w1 Hi) as [(i' & w2 & n & E3 & Hm2 & Hn & Hn2 & Hge & HR)|(i' & w2 & E3 & Ht & HR)]; rewrite E3; cbn [bind].
          + do 3 eexists. split; [reflexivity|]. cbn beta iota. split; [eapply makes_trans; eauto|]. rewrite H3.
            assert (Hn1 : 1 <= Nat.min (min_opt n mx) (t_left a)) by (destruct mx; cbn [min_opt]; lia).
            assert (Hnn : Nat.min (min_opt n mx) (t_left a) <= n) by (destruct mx; cbn [min_opt]; lia).
            split; [exact Hn1|]. eapply tc_rel_inner; eauto; [|lia].
            destruct HR as (R1 & R2 & R3 & R4). unfold iv_rel. splits; auto; cbn; lia.
          + do 3 eexists. split; [reflexivity|]. cbn beta iota. split; [eapply makes_trips; eauto|]. eapply tc_rel_inner; eauto; lia.
        - do 3 eexists. split; [reflexivity|]. cbn beta iota. split; [exact Hb|]. eapply tc_rel_inner; eauto; lia. }
      assert (HY : forall x, (exists s' w' (r : caught (res nat E)), x = Ret (s', w', r) /\
          match r with
          | Done (Ok n) => makes default w w' /\ 1 <= n /\ tc_rel error s' a n []
          | Done (Err _) => False
          | Unwound => trips default w w' /\ tc_rel error s' a 0 []
          end) ->
        (exists s' w' n, x = Ret (s', w', Done (Ok n)) /\ makes default w w' /\ 1 <= n /\ tc_rel error s' a n []) \/
        (exists s' w', x = Ret (s', w', Unwound) /\ trips default w w' /\ tc_rel error s' a 0 [])).
      { intros x (s' & w' & [[n|e]|] & Hx & Hr).
        - left. exists s', w', n. auto.
        - destruct Hr.
        - right. exists s', w'. auto. }
      apply HY. destruct (tc_sizes s1) as [[sl i]|] eqn:E3.
      - destruct H7 as [Hs1 Hs2]. destruct (next_size_ok Hs1 Hs2) as (E4 & Hn & Hs'). rewrite E4. cbn [bind].
        exact (HX (Some (nth i sl 1)) _ Hn Hs').
      - cbn [bind]. exact (HX None None Logic.I Logic.I).
    Qed.

    Lemma test_consumer_takes : takes default (@test_consumer_u W T default keep F E) (failing_machine T F error) (fun a => a) (tc_rel error) (tc_end error).
    Proof.
      constructor.
      - intros s a k v ((_ & _ & H & _) & _). exact H.
      - intros s a k v (H1 & H2 & H3 & H4 & H5 & H6 & H7 & H8). unfold tc_rel. splits; auto; try lia.
        exact (iv_rel_forget H1).
      - intros s a k v x w H. exact (tc_consume_u_ok x w H).
      - intros s a k v w H. destruct (t_left a) as [|n] eqn:El.
        + right; left. destruct (tc_yield_ok H) as (s1 & E1 & H' & _). clear H.
          cbn [u_expose test_consumer_u]. unfold test_consumer_expose_u. rewrite E1. cbn [bind].
          destruct (tc_check_err H' El) as (s2 & E2 & HD). rewrite E2. cbn [bind].
          exists s2, w, error, (t_fail a). splits; auto; [constructor|]. intros x. cbn. now rewrite El.
        + destruct (tc_expose_u_ok w H) as [Hx|Hx]; [lia|left; exact Hx|right; right; exact Hx].
      - intros s a k v f H. destruct (tc_yield_ok H) as (s1 & E1 & H' & _). clear H.
        cbn [u_calm test_consumer_u calm_of bulk_consumer_of c_buffered c_consumer c_close].
        unfold test_consumer_close. rewrite E1. cbn [bind m_finish failing_machine].
        destruct (t_left a) as [|n] eqn:El.
        + destruct (tc_check_err H' El) as (s2 & E2 & HD). rewrite E2. cbn [bind]. exists s2. auto.
        + rewrite (tc_check_ok H') by lia. cbn [bind into_vec_close].
          destruct H' as (H1 & H2 & H3 & H4 & H5 & H6 & H7 & H8).
          eexists; split; [reflexivity|]. unfold tc_end; cbn. rewrite H5. splits; auto; try lia. exact (iv_rel_forget H1).
      - intros s a k v H. destruct (tc_yield_ok H) as (s1 & E1 & H' & _). clear H.
        cbn [u_calm test_consumer_u calm_of bulk_consumer_of c_buffered c_consumer c_flush].
        unfold test_consumer_flush. rewrite E1. cbn [bind m_flush failing_machine].
        destruct (t_left a) as [|n] eqn:El.
        + destruct (tc_check_err H' El) as (s2 & E2 & HD). rewrite E2. cbn [bind]. exists s2. auto.
        + rewrite (tc_check_ok H') by lia. cbn [bind into_vec_flush].
          eexists; split; [reflexivity|]. destruct H' as (H1 & H2 & H3 & H4 & H5 & H6 & H7 & H8).
          unfold tc_rel; cbn. splits; auto.
      - intros s a k v ys (H1 & H2 & H3 & H4 & H5 & H6 & H7 & H8) Hy. unfold tc_rel; cbn. splits; auto.
        exact (iv_write_ok ys H1 Hy).
      - intros s a k v n H Hk Hn. pose proof H as ((_ & _ & Hw & _) & _ & _ & _ & _ & Hkl & _).
        assert (Hf : length (firstn n v) = n) by (rewrite firstn_length; lia).
        rewrite failing_feed by lia. destruct (tc_yield_ok H) as (s1 & E1 & H' & _). clear H.
        cbn [u_calm test_consumer_u calm_of bulk_consumer_of c_consume_slots].
        unfold test_consumer_consume_slots. rewrite E1. cbn [bind]. rewrite (tc_check_ok H') by lia. cbn [bind].
        destruct H' as (H1 & H2 & H3 & H4 & H5 & H6 & H7 & H8).
        destruct (iv_consume_slots_ok H1 Hn) as (i & E2 & HR). rewrite E2. cbn [bind].
        rewrite csub_ok by lia. cbn [bind]. rewrite Hf. do 2 eexists; split; [reflexivity|]. split; [reflexivity|].
        unfold tc_rel; cbn. splits; auto; lia.
    Qed.
  End TestConsumer.
End Calls.

(** ** Limit and Invariant *)
Section Around.
  Context {W S A T F E : Type} {default : W -> W * option T} {U : u_consumer W S T F E} {M : machine A T F E} {dent : A -> A}
    {R : S -> A -> nat -> list T -> Prop} {D : S -> A -> Prop} (L : takes default U M dent R D).

  Lemma limit_takes : takes default (limit_u U) (limit_machine M) (fun na => (fst na - 1, dent (snd na))) (@limc_rel S A T R) (@limc_end S A T R D).
  Proof.
    constructor.
    - intros s [n a] k w (H1 & H2 & _). lia.
    - intros s [n a] k w (H1 & H2 & ki & HR & Hk). cbn in *. unfold limc_rel; cbn. splits; auto; try lia.
      exists 0. split; [|lia]. now apply (tk_forget L) in HR.
    - intros [i r] [n a] k v x w (H1 & H2 & ki & HR & Hk). cbn in *. subst r.
      unfold limit_consume_u. cbn. destruct n as [|n]; cbn.
      + left. do 2 eexists. split; [reflexivity|]. split; [constructor|]. right. cbn. split; auto. now apply (tk_forget L) in HR.
      + destruct (tk_consume L x w HR) as [(i' & w' & E1 & Hm & HR')|(i' & w' & E1 & Ht & HR')]; rewrite E1; cbn.
        * left. destruct (m_step M x a) as [a1 [[]|e]]; cbn in *; do 2 eexists; (split; [reflexivity|]); (split; [exact Hm|]).
          -- unfold limc_rel; cbn. splits; auto; try lia. exists 0. auto.
          -- left. exact HR'.
        * right. do 2 eexists. split; [reflexivity|]. split; [exact Ht|]. unfold limc_rel; cbn. rewrite Nat.sub_0_r. splits; auto; try lia.
          exists 0. auto.
    - intros [i r] [n a] k v w (H1 & H2 & ki & HR & Hk). cbn in *. subst r.
      unfold limit_expose_u. cbn. destruct n as [|n]; cbn.
      + right; left. do 4 eexists. split; [reflexivity|]. split; [constructor|]. split; [intros x; reflexivity|].
        right. cbn. split; auto. now apply (tk_forget L) in HR.
      + destruct (tk_expose L w HR) as [(i' & w' & m & E1 & Hm & Hm1 & HR')|[(i' & w' & e & a' & E1 & Hm & Hall & HD)|(i' & w' & E1 & Ht & HR')]]; rewrite E1; cbn.
        * left. do 3 eexists. split; [reflexivity|]. split; [exact Hm|]. split; [destruct m; lia|].
          unfold limc_rel; cbn. splits; auto; try (destruct m; lia). exists m. split; auto. destruct m; lia.
        * right; left. do 4 eexists. split; [reflexivity|]. split; [exact Hm|]. split; [intros x; rewrite Hall; reflexivity|].
          left. exact HD.
        * right; right. do 2 eexists. split; [reflexivity|]. split; [exact Ht|]. unfold limc_rel; cbn. splits; auto; try lia. exists 0. auto.
    - intros [i r] [n a] k v f (H1 & H2 & ki & HR & Hk). cbn in *. subst r.
      unfold limit_close. cbn. destruct (tk_close L f HR) as (i' & E1 & HD). rewrite E1. cbn.
      destruct (m_finish M f a) as [a1 r1]. cbn in *. eexists. split; [reflexivity|]. left. exact HD.
    - intros [i r] [n a] k v (H1 & H2 & ki & HR & Hk). cbn in *. subst r.
      unfold limit_flush. cbn. destruct (tk_flush L HR) as (i' & E1 & HR'). rewrite E1. cbn.
      destruct (m_flush M a) as [a1 [[]|e]]; cbn in *; eexists; (split; [reflexivity|]).
      + unfold limc_rel; cbn. splits; auto; try lia. exists ki. auto.
      + left. exact HR'.
    - intros [i r] [n a] k v ys (H1 & H2 & ki & HR & Hk) Hy. cbn in *. subst r.
      unfold limc_rel, limit_write; cbn [lim_inner lim_remaining fst snd]. rewrite length_overlay_max.
      splits; auto; try lia. exists ki. split; auto. apply (tk_write L); auto; lia.
    - intros [i r] [n a] k v m (H1 & H2 & ki & HR & Hk) Hk1 Hm. cbn in *. subst r.
      unfold limit_consume_slots. cbn. rewrite csub_ok by lia. cbn.
      assert (A1 : 1 <= ki) by lia. destruct (tk_consume_slots L m HR A1 Hm) as (i' & a' & Ef & E1 & HR').
      assert (Hlen : length (firstn m v) = m) by (rewrite firstn_length; lia).
      rewrite limit_feed by (rewrite Hlen; lia). rewrite Hlen, Ef, E1. cbn. do 2 eexists. split; [reflexivity|]. split; [reflexivity|].
      unfold limc_rel; cbn. rewrite skipn_length. splits; auto; try lia. exists (ki - m). split; auto. lia.
  Qed.

  Lemma invariant_takes : takes default (invariant_u U) M dent (@invc_rel S T A R) (@invc_end S A D).
  Proof.
    constructor.
    - intros s a k v (HR & _). exact (tk_wf L HR).
    - intros s a k v (HR & H1 & H2). unfold invc_rel. splits; auto; [exact (tk_forget L HR)|lia].
    - intros [i b j] a k v x w (HR & H1 & H2). cbn in *. subst b. unfold invariant_consume_u, inv_check. cbn.
      destruct (tk_consume L x w HR) as [(i' & w' & E1 & Hm & HR')|(i' & w' & E1 & Ht & HR')]; rewrite E1; cbn; [left|right];
        do 2 eexists; (split; [reflexivity|]); split; auto.
      + destruct (m_step M x a) as [a1 [[]|e]]; auto. unfold invc_rel; cbn. splits; auto. lia.
      + unfold invc_rel; cbn. splits; auto. lia.
    - intros [i b j] a k v w (HR & H1 & H2). cbn in *. subst b. unfold invariant_expose_u, inv_check. cbn.
      destruct (tk_expose L w HR) as [(i' & w' & m & E1 & Hm & Hm1 & HR')|[(i' & w' & e & a' & E1 & Hm & Hall & HD)|(i' & w' & E1 & Ht & HR')]]; rewrite E1; cbn.
      + left. do 3 eexists. split; [reflexivity|]. unfold invc_rel; cbn. splits; auto.
      + right; left. do 4 eexists. split; [reflexivity|]. splits; eauto.
      + right; right. do 2 eexists. split; [reflexivity|]. unfold invc_rel; cbn. splits; auto. lia.
    - intros [i b j] a k v f (HR & H1 & H2). cbn in *. subst b. unfold invariant_close, inv_check. cbn.
      destruct (tk_close L f HR) as (i' & E1 & HR'). rewrite E1. cbn. eexists. split; [reflexivity|exact HR'].
    - intros [i b j] a k v (HR & H1 & H2). cbn in *. subst b. unfold invariant_flush, inv_check. cbn.
      destruct (tk_flush L HR) as (i' & E1 & HR'). rewrite E1. cbn. eexists. split; [reflexivity|].
      destruct (m_flush M a) as [a1 [[]|e]]; auto. unfold invc_rel; cbn. splits; auto.
    - intros [i b j] a k v ys (HR & H1 & H2) Hy. unfold invc_rel; cbn in *. splits; auto. now apply (tk_write L).
    - intros [i b j] a k v n (HR & H1 & H2) Hk Hn. cbn in *. subst b. unfold invariant_consume_slots, inv_check. cbn.
      pose proof (tk_wf L HR). destruct (Nat.ltb_spec j n); [lia|]. rewrite csub_ok by lia. cbn.
      destruct (tk_consume_slots L n HR Hk Hn) as (i' & a' & Ef & E1 & HR'). rewrite E1. cbn.
      do 2 eexists; split; [exact Ef|]. split; [reflexivity|]. unfold invc_rel; cbn. splits; auto. lia.
  Qed.

  (** ** Calls *)
  Context (clone : T -> W -> W * option T).

  Lemma bulk_consume_u_ok : forall s a k v buf w, R s a k v -> buf <> [] ->
    exists s' w' r b', bulk_consume_u U clone buf s w = Ret (s', w', r) /\
      d_answer default clone M dent (CActive a k v) w (CBulkConsume buf) (match r with Done r => Done (CANat r) | Unwound => Unwound end) b' w' /\
      c_rel R D s' b'.
  Proof.
    intros s a k v buf w HR Hbuf. unfold bulk_consume_u.
    assert (Hlb : 1 <= length buf) by (destruct buf; [congruence|cbn; lia]).
    destruct (tk_expose L w HR) as [(s1 & w1 & n & E1 & Hm & Hn & HR1)|[(s1 & w1 & e & a1 & E1 & Hm & He & HD)|(s1 & w1 & E1 & Ht & HR1)]];
      rewrite E1; cbn [bind].
    - set (m := Nat.min n (length buf)).
      destruct (clone_each clone (firstn m buf) w1) as [w' [ys b]] eqn:Ec. destruct b.
      + apply clone_each_true in Ec. pose proof (clones_length Ec) as Hl. rewrite firstn_length in Hl.
        pose proof (tk_write L ys HR1 ltac:(lia)) as HR2. rewrite overlay_nil in HR2.
        destruct (tk_consume_slots L m HR2 ltac:(lia) ltac:(lia)) as (s' & a' & Ef & E2 & HR').
        rewrite firstn_all2 in Ef by lia. rewrite E2. cbn [bind]. exists s', w', (Done (Ok m)), (CActive a' 0 []). split; [reflexivity|].
        split; [|exact (tk_forget L HR')]. cbn. exists w1, ys, a'. splits; auto; lia.
      + apply clone_each_false in Ec. pose proof (breaks_length Ec) as Hl. rewrite firstn_length in Hl.
        exists (c_write (u_calm U) ys s1), w', Unwound, (CActive a 0 []). split; [reflexivity|].
        split; [|exact (tk_forget L (tk_write L ys HR1 ltac:(lia)))]. cbn. split; auto. right. exists w1, m, ys. splits; auto. lia.
    - exists s1, w1, (Done (Err e)), (CEnded a1). split; [reflexivity|]. split; [|exact HD]. cbn. split; auto. exists a1. auto.
    - exists s1, w1, Unwound, (CActive a 0 []). split; [reflexivity|]. split; [|exact HR1]. cbn. auto.
  Qed.

  Lemma d_step : forall s w b o, c_rel R D s b -> c_permitted b o ->
    exists s' w' r b', d_do clone U o s w = Ret (s', w', r) /\ d_answer default clone M dent b w o r b' w' /\ c_rel R D s' b'.
  Proof.
    intros s w [a k v|a] o HR HP; [|destruct HP]. cbn [c_rel] in HR. destruct o as [x|f| | |ys|n|buf]; cbn [c_permitted] in HP; cbn [d_do].
    - destruct (tk_consume L x w HR) as [(s' & w' & E1 & Hm & HR')|(s' & w' & E1 & Ht & HR')]; rewrite E1; cbn [bind].
      + exists s', w', (Done (CAUnit (snd (m_step M x a)))), (c_next (m_step M x a) 0 []). split; [reflexivity|].
        split; [cbn; auto|]. destruct (m_step M x a) as [a1 [[]|e]]; exact HR'.
      + exists s', w', Unwound, (CActive (dent a) 0 []). split; [reflexivity|]. split; [cbn; auto|exact HR'].
    - destruct (tk_close L f HR) as (s' & E1 & HD). rewrite E1. cbn [bind].
      exists s', w, (Done (CAUnit (snd (m_finish M f a)))), (CEnded (fst (m_finish M f a))). split; [reflexivity|]. split; [cbn; auto|exact HD].
    - destruct (tk_flush L HR) as (s' & E1 & HR'). rewrite E1. cbn [bind].
      exists s', w, (Done (CAUnit (snd (m_flush M a)))), (c_next (m_flush M a) k v). split; [reflexivity|]. split; [cbn; auto|].
      destruct (m_flush M a) as [a1 [[]|e]]; exact HR'.
    - destruct (tk_expose L w HR) as [(s1 & w1 & n & E1 & Hm & Hn & HR1)|[(s1 & w1 & e & a1 & E1 & Hm & He & HD)|(s1 & w1 & E1 & Ht & HR1)]];
        rewrite E1; cbn [bind].
      + exists s1, w1, (Done (CASlots (Ok n))), (CActive a n []). split; [reflexivity|]. split; [|exact HR1]. cbn. split; auto. left. exists n. auto.
      + exists s1, w1, (Done (CASlots (Err e))), (CEnded a1). split; [reflexivity|]. split; [|exact HD]. cbn. split; auto. right. exists e, a1. auto.
      + exists s1, w1, Unwound, (CActive a 0 []). split; [reflexivity|]. split; [cbn; auto|exact HR1].
    - do 4 eexists. split; [reflexivity|]. split; [cbn; split; reflexivity|]. exact (tk_write L ys HR HP).
    - destruct HP as [Hk Hn]. destruct (tk_consume_slots L n HR Hk Hn) as (s' & a' & Ef & E1 & HR'). rewrite E1. cbn [bind].
      exists s', w, (Done (CAUnit (Ok tt))), (CActive a' (k - n) (skipn n v)). split; [reflexivity|]. split; [|exact HR'].
      cbn. split; auto. rewrite Ef. auto.
    - destruct (bulk_consume_u_ok w HR HP) as (s' & w' & r & b' & E1 & Ha & HR'). rewrite E1. cbn [bind]. do 4 eexists. split; [reflexivity|]. split; [exact Ha|exact HR'].
  Qed.

  Lemma c_permitted_dec : forall (b : cabs A T) (o : cop T F), c_permitted b o \/ ~ c_permitted b o.
  Proof.
    intros [a k v|a] [x|f| | |ys|n|buf]; cbn; auto.
    - destruct (le_dec (length ys) k); auto.
    - destruct (le_dec 1 k), (le_dec n (length v)); tauto.
    - destruct buf; [right; congruence|left; discriminate].
  Qed.

  Lemma takes_conforms : forall calls s w b, c_rel R D s b -> d_conforms default clone M dent U calls s w b.
  Proof.
    induction calls as [|o calls IH]; intros s w b HR; [constructor|].
    destruct (c_permitted_dec b o) as [HP|HP]; [|now apply d_conforms_broken].
    destruct (@d_step s w b o HR HP) as (s' & w' & r & b' & E1 & Ha & HR'). eapply d_conforms_step; eauto.
  Qed.

  Lemma takes_history : forall calls s w b, c_rel R D s b ->
    exists h s' w' b', d_history default clone M dent U s w b h s' w' b' /\ c_rel R D s' b' /\
      (calls = map fst h \/ exists o calls', calls = map fst h ++ o :: calls' /\ ~ c_permitted b' o).
  Proof.
    induction calls as [|o calls IH]; intros s w b HR.
    - exists [], s, w, b. splits; auto. constructor.
    - destruct (c_permitted_dec b o) as [HP|HP].
      + destruct (@d_step s w b o HR HP) as (s1 & w1 & r & b1 & E1 & Ha & HR1).
        destruct (IH s1 w1 b1 HR1) as (h & s' & w' & b' & Hh & HR' & Hc). exists ((o, r) :: h), s', w', b'. splits; auto.
        * eapply d_history_step; eauto.
        * destruct Hc as [->|(o' & c' & -> & Hn)]; [left; reflexivity|right]. exists o', c'. auto.
      + exists [], s, w, b. splits; auto; [constructor|]. right. exists o, calls. auto.
  Qed.

  (** ** Accounting *)
  Context {log : A -> list T} (LG : logs M dent log).

  Lemma log_feed : forall xs a a' n, m_feed M xs a = (a', n, None) -> log a' = log a ++ xs.
  Proof using LG.
    induction xs as [|x xs IH]; cbn; intros a a' n H.
    - injection H as <- <-. now rewrite app_nil_r.
    - pose proof (lg_step LG x a) as Hs. destruct (m_step M x a) as [a1 [[]|e]]; [|discriminate].
      destruct (m_feed M xs a1) as [[a2 m] [e|]] eqn:E2; [discriminate|]. injection H as <- <-.
      rewrite (IH _ _ _ E2). cbn in Hs. rewrite Hs, <- app_assoc. reflexivity.
  Qed.

  Lemma log_refused : forall a a1 e, (forall x, m_step M x a = (a1, Err e)) -> log a1 = log a.
  Proof using LG.
    intros a a1 e H. assert (Hx : forall x : T, log a1 = log a).
    { intros x. pose proof (lg_step LG x a) as Hs. rewrite H in Hs. exact Hs. }
    destruct (log a1) as [|x l1] eqn:E1, (log a) as [|y l2] eqn:E2; auto.
  Qed.

  Lemma clones_descend : forall xs w ys w', clones clone xs w ys w' -> Forall2 (descends clone) xs ys.
  Proof using. intros xs w ys w' H. induction H; constructor; auto. right. eauto. Qed.

  Lemma descends_same : forall xs : list T, Forall2 (descends clone) xs xs.
  Proof using. induction xs; constructor; auto. now left. Qed.

  Lemma d_ended : forall h s w a s' w' b', d_history default clone M dent U s w (CEnded a) h s' w' b' -> h = [] /\ b' = CEnded a.
  Proof using. intros h s w a s' w' b' H. inversion H; subst; auto. destruct H0. Qed.

  Lemma d_logged : forall h s w b s' w' b', d_history default clone M dent U s w b h s' w' b' ->
    exists out, log (abs_state b') = log (abs_state b) ++ out /\
      Forall2 (descends clone) (t_given (match b with CActive _ _ v => v | CEnded _ => [] end) h) out.
  Proof using LG.
    intros h s w b s' w' b' H. induction H as [s w b|s w b o s1 w1 r b1 h s2 w2 b2 HP HD Ha Hh IH].
    - exists []. rewrite app_nil_r. split; auto. constructor.
    - destruct IH as (out & Hlog & Hout). destruct b as [a k v|a]; [|destruct HP]. cbn [abs_state].
      assert (Hsame : forall v', log (abs_state b1) = log a -> t_given v ((o, r) :: h) = t_given v' h ->
        t_given (match b1 with CActive _ _ v => v | CEnded _ => [] end) h = t_given v' h ->
        exists out, log (abs_state b2) = log a ++ out /\ Forall2 (descends clone) (t_given v ((o, r) :: h)) out).
      { intros v' H1 H2 H3. exists out. rewrite H2, <- H3, <- H1. auto. }
      assert (Hend : forall v', (exists a1, b1 = CEnded a1) -> t_given (match b1 with CActive _ _ v => v | CEnded _ => [] end) h = t_given v' h).
      { intros v' (a1 & ->). apply d_ended in Hh as [-> _]. reflexivity. }
      destruct o as [x|f| | |ys|n|buf]; cbn [d_answer] in Ha.
      + destruct r as [r|].
        * destruct Ha as [_ Ha]. destruct r as [r|r|r|]; try (destruct Ha; fail). destruct Ha as [-> ->].
          pose proof (lg_step LG x a) as Hs. destruct (m_step M x a) as [a1 [[]|e]]; cbn [c_next snd fst abs_state] in *.
          -- exists (x :: out). cbn [t_given]. split; [rewrite Hlog, Hs, <- app_assoc; reflexivity|]. constructor; [now left|exact Hout].
          -- eapply Hsame; [exact Hs|reflexivity|reflexivity].
        * destruct Ha as [_ ->]. eapply Hsame; [exact (lg_dent LG a)|reflexivity|reflexivity].
      + destruct r as [[r|r|r|]|]; cbn in Ha; try tauto. destruct Ha as (_ & _ & ->).
        eapply Hsame with (v' := []); [exact (lg_finish LG f a)|reflexivity|reflexivity].
      + destruct r as [[r|r|r|]|]; cbn in Ha; try tauto. destruct Ha as (_ & -> & ->).
        pose proof (lg_flush LG a) as Hs. destruct (m_flush M a) as [a1 [[]|e]]; cbn in *.
        * eapply Hsame with (v' := v); auto.
        * eapply Hsame with (v' := []); auto.
      + destruct r as [[r|r|r|]|]; cbn in Ha; try tauto.
        * destruct Ha as (_ & [(n & _ & _ & ->)|(e & a1 & He & _ & ->)]); eapply Hsame with (v' := []); auto.
          exact (@log_refused a a1 e He).
        * destruct Ha as (_ & ->). eapply Hsame with (v' := []); auto.
      + destruct r as [[r|r|r|]|]; cbn in Ha; try tauto. destruct Ha as (_ & ->). eapply Hsame with (v' := overlay ys v); auto.
      + destruct r as [[[[]|e]|r|r|]|]; cbn in Ha; try tauto. destruct Ha as (_ & Ha).
        destruct (m_feed M (firstn n v) a) as [[a1 m] [e|]] eqn:Ef; destruct Ha as [Hr ->]; [discriminate|].
        cbn [abs_state] in *. exists (firstn n v ++ out). rewrite Hlog, (log_feed _ _ Ef), <- app_assoc. split; auto.
        cbn [t_given]. apply Forall2_app; [apply descends_same|exact Hout].
      + destruct r as [[r|r|[n|e]|]|]; cbn in Ha; try tauto.
        * destruct Ha as (w3 & ys & a1 & _ & Hn & Hc & Ef & ->). cbn [abs_state] in *. exists (ys ++ out).
          rewrite Hlog, (log_feed _ _ Ef), <- app_assoc. split; auto. cbn [t_given]. apply Forall2_app; [|exact Hout].
          exact (clones_descend Hc).
        * destruct Ha as (_ & a1 & He & ->). eapply Hsame with (v' := []); auto. exact (@log_refused a a1 e He).
        * destruct Ha as (_ & ->). eapply Hsame with (v' := []); auto.
  Qed.
End Around.

(** The machines of the collecting consumers keep a list of what they accept, and so does a Limit around such a machine. *)
Lemma collect_logs : forall T F E, logs (collect_machine T F E) (fun a => a) (fun a => a).
Proof. intros T F E. constructor; reflexivity. Qed.

Lemma failing_logs : forall T F E (error : E), logs (failing_machine T F error) (fun a => a) (@t_log T F).
Proof. intros T F E error. constructor; try reflexivity; [intros x [l f [|n] b]|intros x [l f [|n] b]|intros [l f [|n] b]]; reflexivity. Qed.

Lemma limit_logs : forall A T F E (M : machine A T F E) dent log, logs M dent log ->
  logs (limit_machine M) (fun na => (fst na - 1, dent (snd na))) (fun na => log (snd na)).
Proof.
  intros A T F E M dent log L. constructor.
  - intros x [[|n] a]; cbn; [reflexivity|]. pose proof (lg_step L x a) as H. destruct (m_step M x a) as [a1 [u|e]]; exact H.
  - intros f [n a]; cbn. pose proof (lg_finish L f a) as H. destruct (m_finish M f a) as [a1 r]; exact H.
  - intros [n a]; cbn. pose proof (lg_flush L a) as H. destruct (m_flush M a) as [a1 r]; exact H.
  - intros [n a]; cbn. exact (lg_dent L a).
Qed.

(** ** What a Limit deducts *)
Section LimitCounts.
  Context {W S A T F E : Type} {default : W -> W * option T} {U : u_consumer W S T F E} {M : machine A T F (option E)} {dent : A -> A}
    (clone : T -> W -> W * option T).

  Lemma limit_counts : forall h s w b s' w' b', d_history default clone M dent (limit_u U) s w b h s' w' b' ->
    match b' with CActive _ _ _ => True | CEnded _ => False end ->
    lim_remaining s' + length (t_given (match b with CActive _ _ v => v | CEnded _ => [] end) h) + d_torn h = lim_remaining s.
  Proof.
    intros h s w b s' w' b' H. induction H as [s w b|s w b o s1 w1 r b1 h s2 w2 b2 HP HD Ha Hh IH]; intros Hb.
    - cbn. destruct b; cbn; lia.
    - specialize (IH Hb). destruct b as [a k v|a]; [|destruct HP].
      assert (Hne : forall a1, b1 <> CEnded a1).
      { intros a1 ->. apply d_ended in Hh as [_ ->]. exact Hb. }
      unfold d_torn in *. destruct s as [i n]. destruct o as [x|f| | |ys|m|buf]; cbn [d_answer d_do] in *.
      + destruct r as [[r|r|r|]|]; cbn in Ha; try tauto.
        * destruct Ha as (_ & Hr & Hb1). destruct (m_step M x a) as [a1 [[]|e]]; cbn in Hr, Hb1; subst r; [|exfalso; exact (Hne a1 Hb1)].
          subst b1. cbn in HD. unfold limit_consume_u in HD. cbn in HD. destruct n as [|n]; [discriminate|].
          destruct (u_consume U x i w) as [[[i' w'] [r'|]]| |]; cbn in HD; try discriminate. injection HD as <- _ _. cbn in *. lia.
        * destruct Ha as (_ & ->). cbn in HD. unfold limit_consume_u in HD. cbn in HD. destruct n as [|n]; [discriminate|].
          destruct (u_consume U x i w) as [[[i' w'] [r'|]]| |]; cbn in HD; try discriminate. injection HD as <- _. cbn in *. lia.
      + destruct r as [[r|r|r|]|]; cbn in Ha; try tauto. destruct Ha as (_ & _ & Hb1). exfalso. exact (Hne _ Hb1).
      + destruct r as [[r|r|r|]|]; cbn in Ha; try tauto. destruct Ha as (_ & Hr & Hb1).
        destruct (m_flush M a) as [a1 [[]|e]]; cbn in Hr, Hb1; subst r; [|exfalso; exact (Hne a1 Hb1)].
        subst b1. cbn in HD. unfold limit_flush in HD. cbn in HD.
        destruct (c_flush (u_calm U) i) as [[i' r']| |]; cbn in HD; try discriminate. injection HD as <- _ _. cbn in *. lia.
      + destruct r as [[r|r|r|]|]; cbn in Ha; try tauto.
        * destruct Ha as (_ & [(m & Hm & -> & ->)|(e & a1 & _ & _ & Hb1)]); [|exfalso; exact (Hne a1 Hb1)].
          cbn in HD. unfold limit_expose_u in HD. cbn [lim_remaining lim_inner] in HD. destruct (n =? 0); [discriminate|].
          destruct (u_expose U i w) as [[[i' w'] [[r'|r']|]]| |]; cbn in HD; try discriminate. injection HD as <- _ _. cbn in *. lia.
        * destruct Ha as (_ & ->). cbn in HD. unfold limit_expose_u in HD. cbn [lim_remaining lim_inner] in HD. destruct (n =? 0); [discriminate|].
          destruct (u_expose U i w) as [[[i' w'] [[r'|r']|]]| |]; cbn in HD; try discriminate. injection HD as <- _. cbn in *. lia.
      + destruct r as [[r|r|r|]|]; cbn in Ha; try tauto. destruct Ha as (_ & ->). cbn in HD. injection HD as <- _. cbn in *. lia.
      + destruct r as [[[[]|e]|r|r|]|]; cbn in Ha; try tauto. destruct Ha as (_ & Ha). destruct HP as [Hk Hm].
        destruct (m_feed M (firstn m v) a) as [[a1 q] [e|]] eqn:Ef; destruct Ha as [Hr ->]; [discriminate|].
        cbn in HD. unfold limit_consume_slots, csub in HD. cbn in HD. destruct (n <? m) eqn:El; cbn in HD; [discriminate|].
        apply Nat.ltb_ge in El. destruct (c_consume_slots (u_calm U) m i) as [[i' r']| |]; cbn in HD; try discriminate. injection HD as <- _ _.
        cbn [lim_remaining t_given filter snd] in *. rewrite app_length, firstn_length. lia.
      + destruct r as [[r|r|[m|e]|]|]; cbn in Ha; try tauto.
        * destruct Ha as (w3 & ys & a1 & _ & Hm & Hc & Ef & ->). cbn [limit_u] in HD. unfold bulk_consume_u in HD.
          cbn [u_expose limit_u u_calm] in HD. unfold limit_expose_u in HD. cbn [lim_remaining lim_inner] in HD. destruct (n =? 0); [discriminate|].
          destruct (u_expose U i w) as [[[i' w'] [[r'|r']|]]| |]; cbn [bind] in HD; try discriminate.
          set (q := Nat.min (Nat.min n r') (length buf)) in *.
          destruct (clone_each clone (firstn q buf) w') as [w4 [zs []]]; cbn [bind] in HD; [|discriminate].
          cbn in HD. unfold limit_consume_slots, csub in HD. cbn in HD. destruct (n <? q) eqn:El; cbn in HD; [discriminate|].
          apply Nat.ltb_ge in El. destruct (c_consume_slots (u_calm U) q _) as [[i2 [[]|r2]]| |]; cbn in HD; try discriminate. injection HD as <- _ <-.
          cbn [lim_remaining t_given filter snd] in *. rewrite app_length, firstn_length. lia.
        * destruct Ha as (_ & a1 & _ & Hb1). exfalso. exact (Hne a1 Hb1).
        * destruct Ha as (_ & ->). unfold bulk_consume_u in HD.
          cbn [u_expose limit_u u_calm] in HD. unfold limit_expose_u in HD. cbn [lim_remaining lim_inner] in HD. destruct (n =? 0); [discriminate|].
          destruct (u_expose U i w) as [[[i' w'] [[r'|r']|]]| |]; cbn [bind] in HD; try discriminate.
          -- set (q := Nat.min (Nat.min n r') (length buf)) in *.
             destruct (clone_each clone (firstn q buf) w') as [w4 [zs []]]; cbn [bind] in HD.
             ++ cbn in HD. unfold limit_consume_slots, csub in HD. cbn in HD. destruct (n <? q) eqn:El; cbn in HD; [discriminate|].
                destruct (c_consume_slots (u_calm U) q _) as [[i2 [[]|r2]]| |]; cbn in HD; discriminate.
             ++ injection HD as <- _. cbn in *. lia.
          -- injection HD as <- _. cbn in *. lia.
  Qed.
End LimitCounts.

(** ** Pipes *)
Section Pipe.
  Context {W SP SC A T F PE CE : Type} {default : W -> W * option T} {P : bulk_producer SP T F PE}
    {RP : SP -> list T -> res F PE -> nat -> Prop} {DP : SP -> Prop} (LP : lawful_producer_core P RP DP)
    {U : u_consumer W SC T F CE} {M : machine A T F CE} {dent : A -> A} {RC : SC -> A -> nat -> list T -> Prop} {DC : SC -> A -> Prop}
    (L : takes default U M dent RC DC).

  Lemma pour_once : forall xs fuel sp sc w l k a kc v, RP sp xs l k -> RC sc a kc v -> length xs < fuel ->
    exists sp' sc' w' r, pipe_u (calm_produce P) (u_consume U) (calm_close (u_calm U)) fuel sp sc w = Ret (sp', sc', w', r) /\
      match r with
      | Unwound => exists kept x xs' a', RP sp' xs' l 0 /\ RC sc' a' 0 [] /\ length xs' < length xs /\
          forall kept2 lost2 a2 w2 res, pours default M dent xs' a' w' kept2 lost2 a2 w2 res ->
            pours default M dent xs a w (kept ++ kept2) (x :: lost2) a2 w2 res
      | Done r => exists kept a' res, pours default M dent xs a w kept [] a' w' res /\ pour_ends M RP DP RC DC l sp' sc' a' r res
      end.
  Proof using LP L.
    induction xs as [|x xs IH]; intros fuel sp sc w l k a kc v HP HC Hf; (destruct fuel as [|fuel]; [cbn in Hf; lia|]); cbn [pipe_u]; unfold calm_produce at 1.
    - destruct (lp_produce_last LP HP) as (sp' & E1 & HD). rewrite E1. destruct l as [fin|e]; cbn [bind report_last].
      + destruct (tk_close L fin HC) as (sc' & E2 & HD2). unfold calm_close. rewrite E2. cbn [bind].
        destruct (m_finish M fin a) as [a' [[]|e]] eqn:Em; cbn [snd fst] in *; (eexists sp', sc', w, (Done _); split; [reflexivity|]);
          exists [], a, None; (split; [constructor|]); unfold pour_ends; (splits; auto; [unfold pipe_end; rewrite Em; reflexivity|rewrite Em; exact HD2]).
      + eexists sp', sc, w, (Done _). split; [reflexivity|]. exists [], a, None. split; [constructor|]. unfold pour_ends. splits; auto. exact (tk_forget L HC).
    - destruct (lp_produce LP HP) as (sp1 & E1 & HP1). rewrite E1. cbn [bind].
      destruct (tk_consume L x w HC) as [(sc1 & w1 & E2 & Hm & HC1)|(sc1 & w1 & E2 & Ht & HC1)]; rewrite E2; cbn [bind].
      + destruct (m_step M x a) as [a1 [[]|e]] eqn:Em; cbn [snd] in *.
        * destruct (IH fuel sp1 sc1 w1 l (k - 1) a1 0 [] HP1 HC1 ltac:(cbn in Hf; lia)) as (sp2 & sc2 & w2 & r & E3 & H). exists sp2, sc2, w2, r. split; [exact E3|].
          destruct r as [r|].
          -- destruct H as (kept & a' & res & H1 & H2). exists (x :: kept), a', res. split; [eapply pours_kept; eauto|exact H2].
          -- destruct H as (kept & y & xs' & a' & H1 & H2 & H3 & H4). exists (x :: kept), y, xs', a'. splits; auto; [cbn; lia|].
             intros. cbn [app]. eapply pours_kept; eauto.
        * eexists sp1, sc1, w1, (Done _). split; [reflexivity|]. exists [], a1, (Some (e, xs)). split; [eapply pours_refused; eauto|]. unfold pour_ends. splits; auto. exact (lp_forget LP HP1).
      + eexists sp1, sc1, w1, Unwound. split; [reflexivity|]. exists [], x, xs, (dent a). splits; auto; [exact (lp_forget LP HP1)|].
        intros. cbn [app]. eapply pours_lost; eauto.
  Qed.

  Lemma pour_again : forall attempts xs fuel sp sc w l k a kc v, RP sp xs l k -> RC sc a kc v -> length xs < fuel -> length xs < attempts ->
    exists sp' sc' w' r kept lost a' res,
      pipe_again (calm_produce P) (u_consume U) (calm_close (u_calm U)) attempts fuel sp sc w = Ret (sp', sc', w', Done r) /\
      pours default M dent xs a w kept lost a' w' res /\ pour_ends M RP DP RC DC l sp' sc' a' r res.
  Proof using LP L.
    induction attempts as [|n IH]; intros xs fuel sp sc w l k a kc v HP HC Hf Ha; cbn [pipe_again]; [lia|].
    destruct (@pour_once xs fuel sp sc w l k a kc v HP HC Hf) as (sp1 & sc1 & w1 & r & E1 & H). rewrite E1. cbn [bind]. destruct r as [r|].
    - destruct H as (kept & a' & res & H1 & H2). exists sp1, sc1, w1, r, kept, [], a', res. auto.
    - destruct H as (kept & x & xs1 & a1 & H1 & H2 & H3 & H4).
      destruct (IH xs1 fuel sp1 sc1 w1 l 0 a1 0 [] H1 H2 ltac:(lia) ltac:(lia)) as (sp2 & sc2 & w2 & r & kept2 & lost & a2 & res & H5 & H6 & H7).
      exists sp2, sc2, w2, r, (kept ++ kept2), (x :: lost), a2, res. auto.
  Qed.

  Lemma pours_log : forall log, logs M dent log -> forall xs a w kept lost a' w' res, pours default M dent xs a w kept lost a' w' res ->
    log a' = log a ++ kept.
  Proof using.
    intros log LG xs a w kept lost a' w' res H. induction H as [a w|x xs a w a1 w1 kept lost a' w' r Hm Hs H IH|x xs a w w1 kept lost a' w' r Ht H IH|x xs a w a' w' e Hm Hs].
    - now rewrite app_nil_r.
    - pose proof (lg_step LG x a) as Hl. rewrite Hs in Hl. cbn in Hl. rewrite IH, Hl, <- app_assoc. reflexivity.
    - rewrite IH, (lg_dent LG). reflexivity.
    - pose proof (lg_step LG x a) as Hl. rewrite Hs in Hl. cbn in Hl. now rewrite app_nil_r.
  Qed.

  Lemma pours_count : forall xs a w kept lost a' w' res, pours default M dent xs a w kept lost a' w' res ->
    length kept + length lost + match res with Some (_, rest) => 1 + length rest | None => 0 end = length xs.
  Proof using. intros xs a w kept lost a' w' res H. induction H; cbn in *; lia. Qed.
End Pipe.

(** ** With a constant for [default] *)
Section Plain.
  Context {T : Type} (x : T) (keep : nat -> nat).

  Lemma default_each_plain : forall n, default_each (plain_default x) n tt = (tt, (repeat x n, true)).
  Proof. induction n as [|n IH]; cbn; [reflexivity|]. now rewrite IH. Qed.

  Lemma resize_plain : forall n v, resize_with (plain_default x) keep n v tt = (tt, (resize_default x n v, true)).
  Proof. intros n v. unfold resize_with. now rewrite default_each_plain. Qed.

  Lemma make_space_plain : forall s : into_vec T, into_vec_make_space_if_needed_u (plain_default x) keep s tt = (into_vec_make_space_if_needed x s, tt, true).
  Proof.
    intros s. unfold into_vec_make_space_if_needed_u, into_vec_make_space_if_needed. rewrite resize_plain.
    destruct (iv_consumed s =? length (iv_v s)); reflexivity.
  Qed.

  Lemma into_vec_plain :
    (forall item s, into_vec_consume_u (plain_default x) keep item s tt = let* (s', r) := into_vec_consume x item s in Ret (s', tt, Done r)) /\
    (forall s, into_vec_expose_u (plain_default x) keep s tt = let* (s', r) := into_vec_expose x s in Ret (s', tt, Done r)).
  Proof.
    split.
    - intros item s. unfold into_vec_consume_u, into_vec_consume. rewrite make_space_plain.
      destruct (index_set _ item _); reflexivity.
    - intros s. unfold into_vec_expose_u, into_vec_expose. rewrite make_space_plain. destruct (slice_from _ _); reflexivity.
  Qed.

  Lemma tc_grow_plain : forall fuel min_len i,
    tc_grow_u (plain_default x) keep fuel min_len i tt = let* i' := tc_grow x fuel min_len i in Ret (i', tt, true).
  Proof.
    induction fuel as [|fuel IH]; intros min_len i; cbn [tc_grow_u tc_grow]; [reflexivity|].
    destruct (into_vec_remaining_slots i) as [n| |]; cbn [bind]; try reflexivity. destruct (n <? min_len); [|reflexivity].
    unfold into_vec_make_space_even_if_not_needed_u. rewrite resize_plain. apply IH.
  Qed.

  Lemma test_consumer_plain : forall F E,
    (forall item (s : test_consumer_state T F E),
       test_consumer_consume_u (plain_default x) keep item s tt = let* (s', r) := test_consumer_consume x item s in Ret (s', tt, Done r)) /\
    (forall s : test_consumer_state T F E,
       test_consumer_expose_u (plain_default x) keep s tt = let* (s', r) := test_consumer_expose x s in Ret (s', tt, Done r)).
  Proof.
    intros F E. destruct into_vec_plain as [HC HE]. split.
    - intros item s. unfold test_consumer_consume_u, test_consumer_consume. destruct (tc_maybe_yield s) as [s1| |]; cbn [bind]; try reflexivity.
      destruct (tc_check_error s1) as [[s2 [e|]]| |]; cbn [bind]; try reflexivity. rewrite HC.
      destruct (into_vec_consume x item (tc_inner s2)) as [[i r]| |]; cbn [bind]; try reflexivity.
      destruct (csub (tc_left s2) 1); reflexivity.
    - intros s. unfold test_consumer_expose_u, test_consumer_expose. destruct (tc_maybe_yield s) as [s1| |]; cbn [bind]; try reflexivity.
      destruct (tc_check_error s1) as [[s2 [e|]]| |]; cbn [bind]; try reflexivity.
      assert (H : forall mx sz,
        (let s := mk_tc (tc_inner s2) (tc_fin s2) (tc_error s2) (tc_left s2) sz (tc_yielder s2) in
         let min_len := min_opt 2048 mx in
         let* (i, w, b) := tc_grow_u (plain_default x) keep (min_len + 1) min_len (tc_inner s) tt in
         if b then
           let* (i, w, r) := into_vec_expose_u (plain_default x) keep i w in
           match r with
           | Unwound => Ret (tc_set_inner i s, w, Unwound)
           | Done (Ok slots) => Ret (tc_set_inner i s, w, Done (@Ok nat E (Nat.min (min_opt slots mx) (tc_left s))))
           | Done (Err _) => Panic
           end
         else Ret (tc_set_inner i s, w, Unwound)) =
        (let* (s', r) :=
           let min_len := min_opt 2048 mx in
           let* i := tc_grow x (min_len + 1) min_len (tc_inner s2) in
           let* (i, r) := into_vec_expose x i in
           match r with
           | Ok slots =>
               let actual_len := Nat.min (min_opt slots mx) (tc_left s2) in
               Ret (mk_tc i (tc_fin s2) (tc_error s2) (tc_left s2) sz (tc_yielder s2), @Ok nat E actual_len)
           | Err _ => Panic
           end in Ret (s', tt, Done r))).
      { intros mx sz. cbv zeta. cbn [tc_inner tc_left]. rewrite tc_grow_plain. destruct (tc_grow x _ _ _) as [i| |]; cbn [bind]; try reflexivity.
        rewrite HE. destruct (into_vec_expose x i) as [[i' [n|e]]| |]; reflexivity. }
      destruct (tc_sizes s2) as [sz|]; cbn [bind]; [|exact (H None None)].
      destruct (next_size sz) as [[n sz']| |]; cbn [bind]; try reflexivity. exact (H (Some n) (Some sz')).
  Qed.
End Plain.

(** Proofs about the adaptors. *)
From Coq Require Import Bool List Arith Lia.
From Verif Require Import Prelude ListFacts Traits Contracts ContractFacts BasicModel BasicSpec BasicProofs Reference
  AdaptorModel AdaptorSpec.
Import ListNotations.
Set Implicit Arguments.

(** ** Limit, producer *)
Section LimitP.
  Context {S T F E : Type} {P : bulk_producer S T F E} {R : S -> list T -> res F E -> nat -> Prop} {D : S -> Prop}.
  Context (full : list T) (l0 : res F E) (n : nat).

  (** [full], [l0] is the sequence of the inner producer when it was wrapped. *)
  Definition lim_rel (s : limit S) (xs : list T) (l : res (option F) E) (k : nat) : Prop :=
    exists ki, R (lim_inner s) (skipn (n - lim_remaining s) full) l0 ki /\
      lim_remaining s <= n /\ n - lim_remaining s <= length full /\
      xs = firstn (lim_remaining s) (skipn (n - lim_remaining s) full) /\
      l = limit_last n full l0 /\ k <= ki /\ k <= lim_remaining s.

  Definition lim_end (s : limit S) : Prop :=
    if length full <? n then D (lim_inner s)
    else lim_remaining s = 0 /\ R (lim_inner s) (skipn n full) l0 0.

  Lemma limit_core : lawful_producer_core P R D -> lawful_producer_core (limit_producer P) lim_rel lim_end.
  Proof.
    intros L. constructor.
    - intros s xs l k (ki & HR & H1 & H2 & -> & -> & H3 & H4).
      pose proof (lp_wf L HR). rewrite firstn_length. lia.
    - intros s xs l k (ki & HR & H1 & H2 & Hx & Hl & H3 & H4). exists ki. splits; auto; lia.
    - intros [i r] x xs l k (ki & HR & H1 & H2 & Hx & Hl & H3 & H4). cbn in *.
      destruct r as [|r]; [discriminate|]. destruct (skipn (n - Datatypes.S r) full) as [|y ys] eqn:Es; [discriminate|].
      cbn in Hx. injection Hx as -> ->.
      destruct (lp_produce L HR) as (i' & E1 & HR').
      exists (mk_limit i' r). unfold limit_produce. cbn. rewrite E1. cbn. split; [reflexivity|].
      assert (Hys : ys = skipn (n - r) full).
      { replace (n - r) with ((n - Datatypes.S r) + 1) by lia. rewrite <- skipn_skipn, Es. reflexivity. }
      assert (length (skipn (n - Datatypes.S r) full) = Datatypes.S (length ys)) by now rewrite Es.
      rewrite skipn_length in *.
      exists (ki - 1). cbn. rewrite <- Hys. splits; auto; lia.
    - intros [i r] l k (ki & HR & H1 & H2 & Hx & -> & H3 & H4). cbn in *.
      unfold limit_produce. cbn. unfold lim_end, limit_last. destruct r as [|r].
      + eexists. split; [destruct (Nat.ltb_spec (length full) n); [lia|reflexivity]|].
        destruct (Nat.ltb_spec (length full) n); [lia|]. split; [reflexivity|]. cbn.
        rewrite Nat.sub_0_r in HR. now apply (lp_forget L) in HR.
      + assert (Es : skipn (n - Datatypes.S r) full = []) by (destruct (skipn (n - Datatypes.S r) full); [reflexivity|discriminate]).
        rewrite Es in HR. destruct (lp_produce_last L HR) as (i' & E1 & HD). rewrite E1.
        assert (length (skipn (n - Datatypes.S r) full) = 0) by now rewrite Es. rewrite skipn_length in *.
        destruct (Nat.ltb_spec (length full) n); [|lia]. cbn.
        destruct l0; cbn; eexists; split; try reflexivity; exact HD.
    - intros [i r] xs l k (ki & HR & H1 & H2 & Hx & Hl & H3 & H4) Hne. cbn in *.
      destruct r as [|r]; [now destruct Hne|].
      assert (Hs : skipn (n - Datatypes.S r) full <> []) by (intros E0; rewrite E0 in Hx; now destruct Hne).
      destruct (lp_expose L HR Hs) as (i' & ys & rest & E1 & Hy & Es & HR').
      unfold limit_expose. cbn [lim_remaining lim_inner Nat.eqb]. rewrite E1. cbn [bind].
      rewrite slice_to_ok by lia. cbn [bind].
      eexists (mk_limit i' (Datatypes.S r)), _, (skipn (Nat.min (Datatypes.S r) (length ys)) xs). split; [reflexivity|].
      assert (Hf : firstn (Nat.min (Datatypes.S r) (length ys)) ys = firstn (Nat.min (Datatypes.S r) (length ys)) xs).
      { rewrite Hx, firstn_firstn, Es. rewrite firstn_app.
        replace (Nat.min (Nat.min (Datatypes.S r) (length ys)) (Datatypes.S r)) with (Nat.min (Datatypes.S r) (length ys)) by lia.
        replace (Nat.min (Datatypes.S r) (length ys) - length ys) with 0 by lia. cbn. now rewrite app_nil_r. }
      assert (Hl1 : 1 <= length ys) by (destruct ys; [now destruct Hy|cbn; lia]).
      assert (Hl2 : length (firstn (Nat.min (Datatypes.S r) (length ys)) ys) = Nat.min (Datatypes.S r) (length ys)) by (rewrite firstn_length; lia).
      splits.
      + intros E0. rewrite E0 in Hl2. cbn [length] in Hl2. lia.
      + rewrite Hf. now rewrite firstn_skipn.
      + exists (length ys). cbn [lim_inner lim_remaining]. rewrite Hl2. splits; auto; lia.
    - intros [i r] l k (ki & HR & H1 & H2 & Hx & -> & H3 & H4). cbn in *.
      unfold limit_expose, lim_end, limit_last. cbn. destruct r as [|r]; cbn.
      + eexists. split; [destruct (Nat.ltb_spec (length full) n); [lia|reflexivity]|].
        destruct (Nat.ltb_spec (length full) n); [lia|]. split; [reflexivity|]. cbn.
        rewrite Nat.sub_0_r in HR. now apply (lp_forget L) in HR.
      + assert (Es : skipn (n - Datatypes.S r) full = []) by (destruct (skipn (n - Datatypes.S r) full); [reflexivity|discriminate]).
        rewrite Es in HR. destruct (lp_expose_last L HR) as (i' & E1 & HD). rewrite E1.
        assert (length (skipn (n - Datatypes.S r) full) = 0) by now rewrite Es. rewrite skipn_length in *.
        destruct (Nat.ltb_spec (length full) n); [|lia]. cbn.
        destruct l0; cbn; eexists; split; try reflexivity; exact HD.
    - intros [i r] xs l k m (ki & HR & H1 & H2 & Hx & Hl & H3 & H4) Hk Hm. cbn in *.
      unfold limit_consider. cbn. rewrite csub_ok by lia. cbn.
      assert (A1 : 1 <= ki) by lia. assert (A2 : m <= ki) by lia.
      destruct (lp_consider L m HR A1 A2) as (i' & E1 & HR'). rewrite E1. cbn.
      eexists. split; [reflexivity|]. pose proof (lp_wf L HR) as Hw. rewrite skipn_length in Hw.
      rewrite skipn_skipn in HR'.
      exists (ki - m). cbn. replace (n - (r - m)) with ((n - r) + m) by lia.
      splits; auto; try lia. rewrite Hx, skipn_firstn_comm, skipn_skipn. reflexivity.
  Qed.

  Lemma limit_lawful : lawful_producer_core P R D -> lawful_producer (limit_producer P) lim_rel lim_end.
  Proof. intros L. apply default_lawful_producer; [|reflexivity]. now apply limit_core. Qed.

  (** [slurp] only breaks the contract if the inner producer fails right after [n] items. *)
  Lemma limit_slurp_lawful : lawful_slurp P R D -> (length full = n -> exists f, l0 = Ok f) ->
    lawful_slurp (limit_producer P) lim_rel lim_end.
  Proof.
    intros L Hn [i r] xs l k (ki & HR & H1 & H2 & Hx & Hl & H3 & H4). cbn in *. unfold limit_slurp. cbn.
    destruct (L _ _ _ _ HR) as [(i' & E1 & HR')|(i' & e & E1 & Es & El & HD)]; rewrite E1; cbn.
    - left. eexists. split; [reflexivity|]. exists ki. cbn. auto 8.
    - assert (Hlen : length (skipn (n - r) full) = 0) by now rewrite Es. rewrite skipn_length in Hlen.
      right. exists (mk_limit i' r), e. split; [reflexivity|]. rewrite Es in Hx. rewrite firstn_nil in Hx. split; [exact Hx|].
      destruct (Nat.eq_dec (length full) n) as [He|He].
      + destruct (Hn He) as [f Hf]. congruence.
      + unfold lim_end, limit_last in *. destruct (Nat.ltb_spec (length full) n); [|lia]. rewrite El in Hl. auto.
  Qed.

  Lemma lim_rel_new : forall s k, R s full l0 k -> lim_rel (limit_new s n) (firstn n full) (limit_last n full l0) 0.
  Proof.
    intros s k HR. exists k. cbn. rewrite Nat.sub_diag. cbn. splits; auto; lia.
  Qed.

  (** What the inner producer holds: everything that was not emitted. *)
  Lemma lim_rel_inner : forall s xs l k, lawful_producer_core P R D -> lim_rel s xs l k ->
    R (lim_inner s) (skipn (n - lim_remaining s) full) l0 0 /\
    firstn (n - lim_remaining s) full ++ xs = firstn n full /\ lim_remaining s <= n /\ n - lim_remaining s <= length full.
  Proof.
    intros [i r] xs l k L (ki & HR & H1 & H2 & Hx & Hl & H3 & H4). cbn in *. splits; auto.
    - now apply (lp_forget L) in HR.
    - rewrite Hx, firstn_app_skipn. f_equal. lia.
  Qed.
End LimitP.
Arguments lim_rel {S T F E} R full l0 n s xs l k.
Arguments lim_end {S T F E} R D full l0 n s.

(** ** Limit, consumer *)
Section LimitC.
  Context {S A T F E : Type} {C : bulk_consumer S T F E} {M : machine A T F E}
    {R : S -> A -> nat -> list T -> Prop} {D : S -> A -> Prop}.

  Definition limc_rel (s : limit S) (na : nat * A) (k : nat) (w : list T) : Prop :=
    lim_remaining s = fst na /\ length w <= k <= lim_remaining s /\
    exists ki, R (lim_inner s) (snd na) ki w /\ k <= ki.

  (** After the end, either the inner consumer has ended, or the limit is exhausted and the inner
      consumer is untouched. *)
  Definition limc_end (s : limit S) (na : nat * A) : Prop :=
    D (lim_inner s) (snd na) \/ (fst na = 0 /\ R (lim_inner s) (snd na) 0 []).

  Lemma limit_feed : forall xs n a, length xs <= n ->
    m_feed (limit_machine M) xs (n, a) =
    match m_feed M xs a with
    | (a', c, None) => ((n - length xs, a'), c, None)
    | (a', c, Some e) => ((n - Datatypes.S c, a'), c, Some (Some e))
    end.
  Proof.
    induction xs as [|x xs IH]; intros n a H; cbn [m_feed length] in *.
    - now rewrite Nat.sub_0_r.
    - destruct n as [|n]; [lia|]. cbn. destruct (m_step M x a) as [a1 [[]|e]]; cbn.
      + rewrite IH by lia. destruct (m_feed M xs a1) as [[a2 c] [e|]]; reflexivity.
      + now rewrite Nat.sub_0_r.
  Qed.

  Lemma limit_consumer_core : lawful_consumer_core C M R D ->
    lawful_consumer_core (limit_consumer C) (limit_machine M) limc_rel limc_end.
  Proof.
    intros L. constructor.
    - intros s [n a] k w (H1 & H2 & _). lia.
    - intros s [n a] k w (H1 & H2 & ki & HR & Hk). cbn in *. unfold limc_rel; cbn. splits; auto; try lia.
      exists 0. split; [|lia]. now apply (lc_forget L) in HR.
    - intros [i r] [n a] k w x (H1 & H2 & ki & HR & Hk). cbn in *. subst r.
      unfold limit_consume. cbn. destruct n as [|n]; cbn.
      + eexists. split; [reflexivity|]. right. cbn. split; auto. now apply (lc_forget L) in HR.
      + destruct (lc_consume L x HR) as (i' & E1 & HR'). rewrite E1. cbn.
        destruct (m_step M x a) as [a1 [[]|e]]; cbn in *; eexists; (split; [reflexivity|]).
        * unfold limc_rel; cbn. splits; auto; try lia. exists 0. auto.
        * left. exact HR'.
    - intros [i r] [n a] k w f (H1 & H2 & ki & HR & Hk). cbn in *. subst r.
      unfold limit_close. cbn. destruct (lc_close L f HR) as (i' & E1 & HD). rewrite E1. cbn.
      destruct (m_finish M f a) as [a1 r1]. cbn in *. eexists. split; [reflexivity|]. left. exact HD.
    - intros [i r] [n a] k w (H1 & H2 & ki & HR & Hk). cbn in *. subst r.
      unfold limit_flush. cbn. destruct (lc_flush L HR) as (i' & E1 & HR'). rewrite E1. cbn.
      destruct (m_flush M a) as [a1 [[]|e]]; cbn in *; eexists; (split; [reflexivity|]).
      + unfold limc_rel; cbn. splits; auto; try lia. exists ki. auto.
      + left. exact HR'.
    - intros [i r] [n a] k w (H1 & H2 & ki & HR & Hk). cbn in *. subst r.
      unfold limit_expose_slots. cbn. destruct n as [|n]; cbn.
      + right. do 3 eexists. split; [reflexivity|]. split; [intros x; reflexivity|].
        right. cbn. split; auto. now apply (lc_forget L) in HR.
      + destruct (lc_expose L HR) as [(i' & m & E1 & Hm & HR')|(i' & e & a' & E1 & Hall & HD)]; rewrite E1; cbn.
        * left. do 2 eexists. split; [reflexivity|]. split; [destruct m; lia|].
          unfold limc_rel; cbn. splits; auto; try (destruct m; lia). exists m. split; auto. destruct m; lia.
        * right. do 3 eexists. split; [reflexivity|]. split; [intros x; rewrite Hall; reflexivity|].
          left. exact HD.
    - intros [i r] [n a] k w ys (H1 & H2 & ki & HR & Hk) Hy. cbn in *. subst r.
      unfold limc_rel, limit_write; cbn [lim_inner lim_remaining fst snd]. rewrite length_overlay_max.
      splits; auto; try lia. exists ki. split; auto. apply (lc_write L); auto; lia.
    - intros [i r] [n a] k w m (H1 & H2 & ki & HR & Hk) Hk1 Hm. cbn in *. subst r.
      unfold limit_consume_slots. cbn. rewrite csub_ok by lia. cbn.
      assert (A1 : 1 <= ki) by lia. pose proof (lc_consume_slots L m HR A1 Hm) as HS.
      assert (Hlen : length (firstn m w) = m) by (rewrite firstn_length; lia).
      rewrite limit_feed by (rewrite Hlen; lia). rewrite Hlen.
      destruct (m_feed M (firstn m w) a) as [[a1 c] [e|]]; destruct HS as (i' & E1 & HR'); rewrite E1; cbn;
        eexists; (split; [reflexivity|]).
      + left. exact HR'.
      + unfold limc_rel; cbn. rewrite skipn_length. splits; auto; try lia. exists (ki - m). split; auto. lia.
  Qed.

  Lemma limit_consumer_lawful : lawful_consumer_core C M R D ->
    lawful_consumer (limit_consumer C) (limit_machine M) limc_rel limc_end.
  Proof. intros L. apply default_lawful_consumer; [|reflexivity]. now apply limit_consumer_core. Qed.

  Lemma limc_rel_new : forall s a k w n, lawful_consumer_core C M R D -> R s a k w ->
    limc_rel (limit_new s n) (n, a) 0 [].
  Proof.
    intros s a k w n L HR. unfold limc_rel; cbn. splits; auto; try lia. exists 0. split; auto.
    now apply (lc_forget L) in HR.
  Qed.
End LimitC.
Arguments limc_rel {S A T} R s na k w.
Arguments limc_end {S A T} R D s na.

Lemma limit_feed_count : forall A T F E (M : machine A T F E) xs n a n' a' c,
  m_feed (limit_machine M) xs (n, a) = ((n', a'), c, None) -> n' + length xs = n.
Proof.
  intros A T F E M. induction xs as [|x xs IH]; intros n a n' a' c H; cbn in H.
  - inversion H; subst. cbn. lia.
  - destruct n as [|n]; cbn in H; [discriminate|]. destruct (m_step M x a) as [a1 [[]|e]]; cbn in H; [|discriminate].
    destruct (m_feed (limit_machine M) xs (n, a1)) as [[[n2 a2] c2] e2] eqn:E1. inversion H; subst.
    apply IH in E1. cbn. lia.
Qed.

Lemma limit_count : forall S A T F E (C : bulk_consumer S T F (option E)) (M : machine A T F E) s n a k w h s' n' a' k' w',
  c_history C (limit_machine M) s (CActive (n, a) k w) h s' (CActive (n', a') k' w') ->
  n' + length (c_consumed w h) = n.
Proof.
  intros S A T F E C M s n a k w h s' n' a' k' w' HH.
  remember (CActive (n, a) k w) as c eqn:Hc. remember (CActive (n', a') k' w') as c' eqn:Hc'.
  revert n a k w Hc n' a' k' w' Hc'.
  induction HH as [s c|s c o s1 r c1 h s2 c2 HP HD HA HH IH]; intros n a k w -> n' a' k' w' Hc'.
  - injection Hc' as <- <- <- <-. cbn. lia.
  - assert (Hend : forall b, c1 <> CEnded b).
    { intros b ->. inversion HH; subst; [discriminate|]. destruct H. }
    destruct o; destruct r; cbn [c_answer] in HA; try contradiction.
    + destruct HA as [-> ->]. cbn in Hend |- *. destruct n as [|n]; cbn in *; [destruct (Hend _ eq_refl)|].
      destruct (m_step M x a) as [a1 [[]|e]] eqn:E1; cbn in *; [|destruct (Hend _ eq_refl)].
      rewrite ?E1 in IH. pose proof (IH _ _ _ _ eq_refl _ _ _ _ Hc'). lia.
    + destruct HA as [-> ->]. destruct (Hend _ eq_refl).
    + destruct HA as [-> ->]. cbn in Hend |- *. destruct (m_flush M a) as [a1 [[]|e]] eqn:E1; cbn in *; [|destruct (Hend _ eq_refl)].
      rewrite ?E1 in IH. exact (IH _ _ _ _ eq_refl _ _ _ _ Hc').
    + destruct HA as [(m & Hn & -> & ->)|(e & a1 & _ & -> & ->)]; [|destruct (Hend _ eq_refl)].
      exact (IH _ _ _ _ eq_refl _ _ _ _ Hc').
    + subst c1. exact (IH _ _ _ _ eq_refl _ _ _ _ Hc').
    + destruct (m_feed (limit_machine M) (firstn n0 w) (n, a)) as [[[n1 a1] p] [e|]] eqn:E1; destruct HA as [-> ->]; [destruct (Hend _ eq_refl)|].
      cbn [c_consumed]. rewrite app_length. apply limit_feed_count in E1. pose proof (IH _ _ _ _ eq_refl _ _ _ _ Hc'). lia.
    + destruct HA as [(m & [n1 a1] & Hn & E1 & -> & ->)|(m & e & a1 & E1 & -> & ->)]; [|destruct (Hend _ eq_refl)].
      cbn [c_consumed]. rewrite app_length. apply limit_feed_count in E1. pose proof (IH _ _ _ _ eq_refl _ _ _ _ Hc'). lia.
Qed.

(** ** MapItem *)
Lemma map_item_produce_run : forall {S T U W F E} (P : buffered_producer S T F E) (f : W -> T -> W * U) ops s w,
  bp_run (map_item_producer P f) ops (mk_map_item s w) =
    (map_answers f w (fst (bp_run P ops s)),
     omap (fun s' => mk_map_item s' (closure_after f w (answered_items (fst (bp_run P ops s))))) (snd (bp_run P ops s))).
Proof.
  intros S T U W F E P f ops. induction ops as [|o ops IH]; intros s w.
  - reflexivity.
  - destruct o; cbn [bp_run map_item_producer p_produce p_slurp p_producer].
    + unfold map_item_produce. cbn [mi_inner mi_closure].
      destruct (p_produce P s) as [[s1 [[x|y]|e]]| |] eqn:E1; cbn; try reflexivity.
      * destruct (f w x) as [w1 y] eqn:Ef. cbn. rewrite IH. reflexivity.
      * rewrite IH. reflexivity.
      * rewrite IH. reflexivity.
    + unfold map_item_slurp. cbn [mi_inner mi_closure].
      destruct (p_slurp P s) as [[s1 r]| |] eqn:E1; cbn; try reflexivity.
      rewrite IH. reflexivity.
Qed.

Lemma map_item_consume_run : forall {S T U W F E} (C : buffered_consumer S T F E) (f : W -> U -> W * T) ops s w,
  bc_run (map_item_consumer C f) ops (mk_map_item s w) =
    (fst (bc_run C (map_calls f w ops) s),
     omap (fun s' => mk_map_item s' (closure_after f w (called_items ops))) (snd (bc_run C (map_calls f w ops) s))).
Proof.
  intros S T U W F E C f ops. induction ops as [|o ops IH]; intros s w.
  - reflexivity.
  - destruct o as [x|y|]; cbn [bc_run map_calls map_item_consumer c_consume c_close c_flush c_consumer].
    + unfold map_item_consume. cbn [mi_inner mi_closure]. cbn. destruct (f w x) as [w1 z] eqn:Ef. cbn [snd fst].
      destruct (c_consume C z s) as [[s1 r]| |] eqn:E1; cbn; try reflexivity.
      rewrite IH. reflexivity.
    + unfold map_item_close. cbn [mi_inner mi_closure].
      destruct (c_close C y s) as [[s1 r]| |] eqn:E1; cbn; try reflexivity.
      rewrite IH. reflexivity.
    + unfold map_item_flush. cbn [mi_inner mi_closure].
      destruct (c_flush C s) as [[s1 r]| |] eqn:E1; cbn; try reflexivity.
      rewrite IH. reflexivity.
Qed.

(** ** MapFinal *)
Section MapFinalP.
  Context {S T F B E : Type} {P : bulk_producer S T F E} (g : F -> B).

  (** One call. *)
  Lemma map_final_do : forall o s s1 r, p_do (invariant_noop_producer P) o s = Ret (s1, r) ->
    p_do (map_final_producer P) o (mk_with_fun s (Some g)) =
      Ret (mk_with_fun s1 (if pans_final r then None else Some g), pans_final_mapped g r) /\
    (pans_final r = false ->
      p_do (map_final_producer P) o (mk_with_fun s None) = Ret (mk_with_fun s1 None, pans_final_mapped g r)).
  Proof.
    intros o s s1 r. destruct o; cbn;
      unfold default_bulk_produce, map_final_produce, map_final_slurp, map_final_expose, map_final_consider; cbn.
    - destruct (p_produce P s) as [[i [[x|f]|e]]| |]; cbn; intros H; inversion H; subst; cbn; auto.
      split; [reflexivity|discriminate].
    - destruct (p_slurp P s) as [[i q]| |]; cbn; intros H; inversion H; subst; cbn; auto.
    - destruct (p_expose P s) as [[i [[x|f]|e]]| |]; cbn; intros H; inversion H; subst; cbn; auto.
      split; [reflexivity|discriminate].
    - destruct (p_consider P n s) as [[i q]| |]; cbn; intros H; inversion H; subst; cbn; auto.
    - destruct (p_expose P s) as [[i [[x|f]|e]]| |]; cbn; intros H; try (inversion H; subst; cbn; auto; fail).
      + destruct (p_consider P (Nat.min (length x) (length buf)) i) as [[i2 [[]|e]]| |]; cbn in *;
          inversion H; subst; cbn; auto.
      + inversion H; subst; cbn. split; [reflexivity|discriminate].
  Qed.

  Lemma map_final_trace_none : forall h s s', p_trace (invariant_noop_producer P) s h s' -> finals h = 0 ->
    p_trace (map_final_producer P) (mk_with_fun s None)
      (map (fun x => (fst x, pans_final_mapped g (snd x))) h) (mk_with_fun s' None).
  Proof.
    induction h as [|[o r] h IH]; intros s s' HT Hf; inversion HT; subst.
    - constructor.
    - unfold finals in *. cbn in *. destruct (pans_final r) eqn:Er; [discriminate|].
      match goal with H : p_do _ _ _ = Ret _ |- _ => apply map_final_do in H as [_ H] end.
      econstructor; [eauto|]. apply IH; auto.
  Qed.

  Lemma map_final_trace : forall h s s', p_trace (invariant_noop_producer P) s h s' -> finals h <= 1 ->
    p_trace (map_final_producer P) (mk_with_fun s (Some g))
      (map (fun x => (fst x, pans_final_mapped g (snd x))) h)
      (mk_with_fun s' (if finals h =? 0 then Some g else None)).
  Proof.
    induction h as [|[o r] h IH]; intros s s' HT Hf; inversion HT; subst.
    - constructor.
    - unfold finals in *. cbn [filter fst snd] in *.
      match goal with H : p_do _ _ _ = Ret _ |- _ => apply map_final_do in H as [H _] end.
      destruct (pans_final r) eqn:Er; cbn [length] in *.
      + econstructor; [eauto|]. change (length (filter _ h)) with (finals h) in Hf.
        apply map_final_trace_none; auto. lia.
      + econstructor; [eauto|]. apply IH; auto.
  Qed.

  Context {R : S -> list T -> res F E -> nat -> Prop} {D : S -> Prop}.

  Definition mapf_rel (s : with_fun S (F -> B)) (xs : list T) (l : res B E) (k : nat) : Prop :=
    wf_fun s = Some g /\ exists l0, R (wf_inner s) xs l0 k /\ l = res_map g l0.
  Definition mapf_end (s : with_fun S (F -> B)) : Prop := D (wf_inner s).

  Lemma map_final_core : lawful_producer_core P R D -> lawful_producer_core (map_final_producer P) mapf_rel mapf_end.
  Proof.
    intros L. constructor.
    - intros s xs l k (_ & l0 & HR & _). exact (lp_wf L HR).
    - intros s xs l k (Hf & l0 & HR & Hl). split; auto. exists l0. split; auto. exact (lp_forget L HR).
    - intros [i f] x xs l k (Hf & l0 & HR & Hl). cbn in *. subst f.
      destruct (lp_produce L HR) as (i' & E1 & HR'). unfold map_final_produce. cbn. rewrite E1. cbn.
      eexists. split; [reflexivity|]. split; auto. exists l0. auto.
    - intros [i f] l k (Hf & l0 & HR & Hl). cbn in *. subst f.
      destruct (lp_produce_last L HR) as (i' & E1 & HD). unfold map_final_produce. cbn. rewrite E1. cbn.
      subst l. destruct l0; cbn; eexists; (split; [reflexivity|exact HD]).
    - intros [i f] xs l k (Hf & l0 & HR & Hl) Hne. cbn in *. subst f.
      destruct (lp_expose L HR Hne) as (i' & ys & rest & E1 & H1 & H2 & HR'). unfold map_final_expose. cbn. rewrite E1. cbn.
      do 3 eexists. split; [reflexivity|]. splits; eauto. split; auto. exists l0. auto.
    - intros [i f] l k (Hf & l0 & HR & Hl). cbn in *. subst f.
      destruct (lp_expose_last L HR) as (i' & E1 & HD). unfold map_final_expose. cbn. rewrite E1. cbn.
      subst l. destruct l0; cbn; eexists; (split; [reflexivity|exact HD]).
    - intros [i f] xs l k n (Hf & l0 & HR & Hl) Hk Hn. cbn in *. subst f.
      destruct (lp_consider L n HR Hk Hn) as (i' & E1 & HR'). unfold map_final_consider. cbn. rewrite E1. cbn.
      eexists. split; [reflexivity|]. split; auto. exists l0. auto.
  Qed.

  Lemma map_final_lawful : lawful_producer_core P R D -> lawful_producer (map_final_producer P) mapf_rel mapf_end.
  Proof. intros L. apply default_lawful_producer; [|reflexivity]. now apply map_final_core. Qed.

  Lemma map_final_slurp_lawful : lawful_slurp P R D -> lawful_slurp (map_final_producer P) mapf_rel mapf_end.
  Proof.
    intros L [i f] xs l k (Hf & l0 & HR & Hl). cbn in *. subst f. unfold map_final_slurp. cbn.
    destruct (L _ _ _ _ HR) as [(i' & E1 & HR')|(i' & e & E1 & Hx & He & HD)]; rewrite E1; cbn.
    - left. eexists. split; [reflexivity|]. split; auto. exists l0. auto.
    - right. do 2 eexists. split; [reflexivity|]. subst. auto.
  Qed.
End MapFinalP.
Arguments mapf_rel {S T F B E} g R s xs l k.
Arguments mapf_end {S F B} D s.

Section MapFinalC.
  Context {S T F B E : Type} {C : bulk_consumer S T F E} (g : B -> F).

  Lemma map_finalc_do : forall o s s1 r,
    c_do (invariant_noop_consumer C) (cop_final_mapped g o) s = Ret (s1, r) ->
    c_do (map_final_consumer C) o (mk_with_fun s (Some g)) =
      Ret (mk_with_fun s1 (match o with CClose _ => None | _ => Some g end), r) /\
    (match o with CClose _ => False | _ => True end ->
      c_do (map_final_consumer C) o (mk_with_fun s None) = Ret (mk_with_fun s1 None, r)).
  Proof.
    intros o s s1 r. destruct o; cbn;
      unfold default_bulk_consume, map_final_consume, map_final_close, map_final_flush, map_final_expose_slots, map_final_consume_slots, map_final_write; cbn.
    - destruct (c_consume C x s) as [[i q]| |]; cbn; intros H; inversion H; subst; cbn; auto.
    - destruct (c_close C (g f) s) as [[i q]| |]; cbn; intros H; inversion H; subst; cbn; auto. split; [reflexivity|intros []].
    - destruct (c_flush C s) as [[i q]| |]; cbn; intros H; inversion H; subst; cbn; auto.
    - destruct (c_expose C s) as [[i q]| |]; cbn; intros H; inversion H; subst; cbn; auto.
    - intros H; inversion H; subst; auto.
    - destruct (c_consume_slots C n s) as [[i q]| |]; cbn; intros H; inversion H; subst; cbn; auto.
    - destruct (c_expose C s) as [[i [m|e]]| |]; cbn; intros H; try (inversion H; subst; cbn; auto; fail).
      destruct (c_consume_slots C _ _) as [[i2 [[]|e]]| |] in *; cbn in *; inversion H; subst; cbn; auto.
  Qed.

  Lemma map_finalc_trace_none : forall h s s',
    c_trace (invariant_noop_consumer C) s (map (fun x => (cop_final_mapped g (fst x), snd x)) h) s' -> closes h = 0 ->
    c_trace (map_final_consumer C) (mk_with_fun s None) h (mk_with_fun s' None).
  Proof.
    induction h as [|[o r] h IH]; intros s s' HT Hf; inversion HT; subst.
    - constructor.
    - match goal with H : c_do _ _ _ = Ret _ |- _ => rename H into HD end. apply map_finalc_do in HD as [_ HD].
      econstructor; [apply HD; destruct o; auto; discriminate|]. apply IH; auto.
      unfold closes in *. destruct o; cbn in *; auto; discriminate.
  Qed.

  Lemma map_finalc_trace : forall h s s',
    c_trace (invariant_noop_consumer C) s (map (fun x => (cop_final_mapped g (fst x), snd x)) h) s' -> closes h <= 1 ->
    c_trace (map_final_consumer C) (mk_with_fun s (Some g)) h
      (mk_with_fun s' (if closes h =? 0 then Some g else None)).
  Proof.
    induction h as [|[o r] h IH]; intros s s' HT Hf; inversion HT; subst.
    - constructor.
    - match goal with H : c_do _ _ _ = Ret _ |- _ => rename H into HD end. apply map_finalc_do in HD as [HD _].
      econstructor; [exact HD|].
      destruct o; try (apply IH; auto; fail).
      unfold closes in *. cbn in *. apply map_finalc_trace_none; auto. unfold closes. lia.
  Qed.

  Context {A : Type} {M : machine A T F E} {R : S -> A -> nat -> list T -> Prop} {D : S -> A -> Prop}.

  Definition mapfc_rel (s : with_fun S (B -> F)) (a : A) (k : nat) (w : list T) : Prop :=
    wf_fun s = Some g /\ R (wf_inner s) a k w.
  Definition mapfc_end (s : with_fun S (B -> F)) (a : A) : Prop := D (wf_inner s) a.

  Lemma map_final_feed : forall xs a, m_feed (finish_mapped g M) xs a = m_feed M xs a.
  Proof. induction xs as [|x xs IH]; intros a; cbn; auto. destruct (m_step M x a) as [a1 [[]|e]]; auto. now rewrite IH. Qed.

  Lemma map_final_consumer_core : lawful_consumer_core C M R D ->
    lawful_consumer_core (map_final_consumer C) (finish_mapped g M) mapfc_rel mapfc_end.
  Proof.
    intros L. constructor.
    - intros s a k w [_ HR]. exact (lc_wf L HR).
    - intros s a k w [Hf HR]. split; auto. exact (lc_forget L HR).
    - intros [i f] a k w x [Hf HR]. cbn in *. subst f. unfold map_final_consume. cbn.
      destruct (lc_consume L x HR) as (i' & E1 & HR'). rewrite E1. cbn. eexists. split; [reflexivity|].
      destruct (m_step M x a) as [a1 [[]|e]]; [split|]; auto.
    - intros [i f] a k w y [Hf HR]. cbn in *. subst f. unfold map_final_close. cbn.
      destruct (lc_close L (g y) HR) as (i' & E1 & HR'). rewrite E1. cbn. eexists. split; [reflexivity|exact HR'].
    - intros [i f] a k w [Hf HR]. cbn in *. subst f. unfold map_final_flush. cbn.
      destruct (lc_flush L HR) as (i' & E1 & HR'). rewrite E1. cbn. eexists. split; [reflexivity|].
      destruct (m_flush M a) as [a1 [[]|e]]; [split|]; auto.
    - intros [i f] a k w [Hf HR]. cbn in *. subst f. unfold map_final_expose_slots. cbn.
      destruct (lc_expose L HR) as [(i' & n & E1 & Hn & HR')|(i' & e & a' & E1 & Hall & HD)]; rewrite E1; cbn.
      + left. do 2 eexists. split; [reflexivity|]. split; auto. split; auto.
      + right. do 3 eexists. split; [reflexivity|]. split; auto.
    - intros [i f] a k w ys [Hf HR] Hy. cbn in *. subst f. split; auto. now apply (lc_write L).
    - intros [i f] a k w n [Hf HR] Hk Hn. cbn in *. subst f. unfold map_final_consume_slots. cbn.
      rewrite map_final_feed. pose proof (lc_consume_slots L n HR Hk Hn) as HS.
      destruct (m_feed M (firstn n w) a) as [[a1 c] [e|]]; destruct HS as (i' & E1 & HR'); rewrite E1; cbn;
        eexists; (split; [reflexivity|]); auto. split; auto.
  Qed.

  Lemma map_final_consumer_lawful : lawful_consumer_core C M R D ->
    lawful_consumer (map_final_consumer C) (finish_mapped g M) mapfc_rel mapfc_end.
  Proof. intros L. apply default_lawful_consumer; [|reflexivity]. now apply map_final_consumer_core. Qed.
End MapFinalC.
Arguments mapfc_rel {S T F B} g {A} R s a k w.
Arguments mapfc_end {S F B A} D s a.

(** ** MapError *)
Section MapError.
  Context {S T F E B : Type}.

  Lemma map_error_first : forall X (call : S -> outcome (S * res X E)) s s1 r (g : E -> B), call s = Ret (s1, r) ->
    map_error_call call (with_fun_new s g) = Ret (mk_with_fun s1 None, map_err g r).
  Proof. intros X call s s1 r g H. unfold map_error_call, with_fun_new. cbn. now rewrite H. Qed.

  Lemma map_error_none : forall X (call : S -> outcome (S * res X E)) s,
    map_error_call (B := B) call (mk_with_fun s None) = Panic \/ map_error_call (B := B) call (mk_with_fun s None) = NoFuel.
  Proof. intros X call s. unfold map_error_call. cbn. destruct (call s) as [[]| |]; auto. Qed.

  Lemma map_error_takes : forall X (call : S -> outcome (S * res X E)) s s1 (r : res X B),
    map_error_call call s = Ret (s1, r) -> wf_fun s1 = None.
  Proof.
    intros X call s s1 r. unfold map_error_call. destruct (call (wf_inner s)) as [[i q]| |]; cbn; try discriminate.
    destruct (wf_fun s); cbn; try discriminate. intros H. now inversion H.
  Qed.

  (** Every call takes the function, and without the function no call returns. *)
  Lemma map_error_producer_do : forall (P : bulk_producer S T F E) o s s1 r,
    p_do (map_error_producer (B := B) P) o s = Ret (s1, r) -> wf_fun s1 = None /\ wf_fun s <> None.
  Proof.
    intros P o s s1 r H. destruct o; cbn in H.
    1-4: destruct (map_error_call _ s) as [[s2 q]| |] eqn:E1; cbn in H; try discriminate; inversion H; subst;
      split; [now apply map_error_takes in E1|]; intros E0; destruct s as [i0 g0]; cbn in E0; subst g0;
      match type of E1 with map_error_call ?c _ = _ => destruct (map_error_none c i0); congruence end.
    unfold default_bulk_produce in H.
    destruct (map_error_call (p_expose P) s) as [[s2 [[y|y]|e]]| |] eqn:E1; cbn in H; try discriminate.
    - apply map_error_takes in E1. destruct s2 as [i2 f2]. cbn in E1. subst f2.
      match type of H with context [map_error_call ?c ?s] => destruct (map_error_none c i2) as [E2|E2]; rewrite E2 in H end;
        discriminate.
    - inversion H; subst. split; [now apply map_error_takes in E1|]. intros E0. destruct s as [i0 g0]; cbn in E0; subst g0.
      destruct (map_error_none (p_expose P) i0); congruence.
    - inversion H; subst. split; [now apply map_error_takes in E1|]. intros E0. destruct s as [i0 g0]; cbn in E0; subst g0.
      destruct (map_error_none (p_expose P) i0); congruence.
  Qed.

  Lemma map_error_consumer_do : forall (C : bulk_consumer S T F E) o s s1 r,
    c_do (map_error_consumer (B := B) C) o s = Ret (s1, r) ->
    match o with CWrite _ => wf_fun s1 = wf_fun s | _ => wf_fun s1 = None /\ wf_fun s <> None end.
  Proof.
    intros C o s s1 r H. destruct o; cbn in H.
    5: now inversion H.
    1-5: destruct (map_error_call _ s) as [[s2 q]| |] eqn:E1; cbn in H; try discriminate; inversion H; subst;
      split; [now apply map_error_takes in E1|]; intros E0; destruct s as [i0 g0]; cbn in E0; subst g0;
      match type of E1 with map_error_call ?c _ = _ => destruct (map_error_none c i0); congruence end.
    unfold default_bulk_consume in H.
    destruct (map_error_call (c_expose C) s) as [[s2 [y|e]]| |] eqn:E1; cbn in H; try discriminate.
    - apply map_error_takes in E1. destruct s2 as [i2 f2]. cbn in E1. subst f2. cbn in H.
      match type of H with context [map_error_call ?c ?s] => destruct (map_error_none c (wf_inner s)) as [E2|E2]; cbn in E2; rewrite E2 in H end;
        discriminate.
    - inversion H; subst. split; [now apply map_error_takes in E1|]. intros E0. destruct s as [i0 g0]; cbn in E0; subst g0.
      destruct (map_error_none (c_expose C) i0); congruence.
  Qed.
End MapError.

(** ** Invariant *)
Section InvariantP.
  Context {S T F E : Type} {P : bulk_producer S T F E}.

  (** One call through the checker. *)
  Lemma invariant_do : forall o s s1 r j, p_do (invariant_noop_producer P) o s = Ret (s1, r) ->
    match o with PConsider n => n <= j | _ => True end ->
    exists b j', p_do (invariant_producer P) o (mk_invariant s true j) = Ret (mk_invariant s1 b j', r) /\
      (p_ends r = false -> b = true) /\ (forall k, k <= j -> p_shown k o r <= j').
  Proof.
    intros o s s1 r j H Hn. destruct o; cbn in *.
    - unfold invariant_produce, inv_check. cbn.
      destruct (p_produce P s) as [[i [[x|f]|e]]| |]; cbn in *; inversion H; subst; do 2 eexists; (split; [reflexivity|]);
        split; cbn; auto; try discriminate; intros; lia.
    - unfold invariant_slurp, inv_check. cbn.
      destruct (p_slurp P s) as [[i [[]|e]]| |]; cbn in *; inversion H; subst; do 2 eexists; (split; [reflexivity|]);
        split; cbn; auto; discriminate.
    - unfold invariant_expose, inv_check. cbn.
      destruct (p_expose P s) as [[i [[x|f]|e]]| |]; cbn in *; inversion H; subst; do 2 eexists; (split; [reflexivity|]);
        split; cbn; auto; try discriminate; intros; lia.
    - unfold invariant_consider, inv_check. cbn. destruct (Nat.ltb_spec j n); [lia|]. rewrite csub_ok by lia. cbn.
      destruct (p_consider P n s) as [[i q]| |]; cbn in *; inversion H; subst; do 2 eexists; (split; [reflexivity|]);
        split; cbn; auto; intros; lia.
    - unfold default_bulk_produce, invariant_expose, inv_check in *. cbn in *.
      destruct (p_expose P s) as [[i [[x|f]|e]]| |]; cbn in *;
        try (inversion H; subst; do 2 eexists; (split; [reflexivity|]); split; cbn; auto; try discriminate; intros; lia).
      unfold invariant_consider, inv_check. cbn. destruct (Nat.ltb_spec (length x) (Nat.min (length x) (length buf))); [lia|].
      rewrite csub_ok by lia. cbn.
      destruct (p_consider P _ i) as [[i2 [[]|e]]| |]; cbn in *; inversion H; subst; do 2 eexists; (split; [reflexivity|]);
        split; cbn; auto; intros; lia.
  Qed.

  Lemma invariant_trace : forall h s s' k j, k <= j -> p_trace (invariant_noop_producer P) s h s' -> p_rules k h ->
    exists b j', p_trace (invariant_producer P) (mk_invariant s true j) h (mk_invariant s' b j').
  Proof.
    induction h as [|[o r] h IH]; intros s s' k j Hj HT HP; inversion HT; subst.
    - exists true, j. constructor.
    - cbn in HP. destruct HP as [Hn HP].
      match goal with H : p_do _ _ _ = Ret _ |- _ => rename H into HD end.
      destruct (@invariant_do o s s1 r j HD) as (b & j1 & E1 & Hb & Hj1).
      { destruct o; auto. lia. }
      destruct (p_ends r).
      + subst h. match goal with H : p_trace _ _ [] _ |- _ => inversion H; subst end.
        exists b, j1. econstructor; [exact E1|constructor].
      + rewrite (Hb eq_refl) in E1. destruct (IH s1 s' (p_shown k o r) j1) as (b' & j' & HT'); auto.
        exists b', j'. econstructor; eauto.
  Qed.

  (** The checker never changes an answer. *)
  Lemma invariant_do_conv : forall o s s1 r, p_do (invariant_producer P) o s = Ret (s1, r) ->
    p_do (invariant_noop_producer P) o (inv_inner s) = Ret (inv_inner s1, r).
  Proof.
    intros o [i b j] s1 r H. destruct b; [|destruct o; cbn in H; unfold default_bulk_produce in H; discriminate].
    destruct o; cbn in *; unfold default_bulk_produce, invariant_produce, invariant_slurp, invariant_expose, invariant_consider, inv_check in *; cbn in *.
    - destruct (p_produce P i) as [[i1 [[x|f]|e]]| |]; cbn in *; now inversion H.
    - destruct (p_slurp P i) as [[i1 [[]|e]]| |]; cbn in *; now inversion H.
    - destruct (p_expose P i) as [[i1 [[x|f]|e]]| |]; cbn in *; now inversion H.
    - destruct (j <? n) eqn:Ej; [discriminate|]. apply Nat.ltb_ge in Ej. rewrite csub_ok in H by lia. cbn in H.
      destruct (p_consider P n i) as [[i1 q]| |]; cbn in *; now inversion H.
    - destruct (p_expose P i) as [[i1 [[x|f]|e]]| |]; cbn in *; try (now inversion H).
      destruct (Nat.ltb_spec (length x) (Nat.min (length x) (length buf))); [lia|]. rewrite csub_ok in H by lia. cbn in H.
      destruct (p_consider P _ i1) as [[i2 [[]|e]]| |]; cbn in *; now inversion H.
  Qed.

  Lemma invariant_trace_conv : forall h s s', p_trace (invariant_producer P) s h s' ->
    p_trace (invariant_noop_producer P) (inv_inner s) h (inv_inner s').
  Proof.
    induction h as [|[o r] h IH]; intros s s' H; inversion H; subst; econstructor.
    - now apply invariant_do_conv; eauto.
    - now apply IH.
  Qed.

  Lemma invariant_inactive : forall o s, inv_active s = false -> p_do (invariant_producer P) o s = Panic.
  Proof.
    intros o [i b j] H. cbn in H. subst b. destruct o; reflexivity.
  Qed.

  (** Which answers deactivate. *)
  Lemma invariant_deactivates : forall o s s1 r, p_do (invariant_producer P) o s = Ret (s1, r) -> p_ends r = true ->
    match o, r with PConsider _, _ => False | PBulkProduce _, PABuf _ (Err _) => False | _, _ => True end ->
    inv_active s1 = false.
  Proof.
    intros o [i b j] s1 r H He Ho. destruct b; [|rewrite invariant_inactive in H; auto; discriminate].
    destruct o; cbn in *; unfold default_bulk_produce, invariant_produce, invariant_slurp, invariant_expose, invariant_consider, inv_check in *; cbn in *; try contradiction.
    - destruct (p_produce P i) as [[i1 [[x|f]|e]]| |]; cbn in *; inversion H; subst; cbn in *; auto; discriminate.
    - destruct (p_slurp P i) as [[i1 [[]|e]]| |]; cbn in *; inversion H; subst; cbn in *; auto; discriminate.
    - destruct (p_expose P i) as [[i1 [[x|f]|e]]| |]; cbn in *; inversion H; subst; cbn in *; auto; discriminate.
    - destruct (p_expose P i) as [[i1 [[x|f]|e]]| |]; cbn in *; try (inversion H; subst; cbn in *; auto; contradiction).
      destruct (Nat.ltb_spec (length x) (Nat.min (length x) (length buf))); [lia|]. rewrite csub_ok in H by lia. cbn in H.
      destruct (p_consider P _ i1) as [[i2 [[]|e]]| |]; cbn in *; inversion H; subst; cbn in *; try discriminate; contradiction.
  Qed.

  (** The checker's count of what is on display. *)
  Lemma invariant_marked : forall h s s' m, p_trace (invariant_producer P) s h s' -> marked (map fst h) = Some m ->
    inv_exposed s' + m = inv_exposed s.
  Proof.
    induction h as [|[o r] h IH]; intros s s' m H Hm; inversion H; subst.
    - cbn in Hm. inversion Hm. lia.
    - match goal with H : p_do _ _ _ = Ret _ |- _ => rename H into HD end.
      match goal with H : p_trace _ s1 h s' |- _ => rename H into HT end.
      destruct s as [i b j]. destruct b; [|rewrite invariant_inactive in HD; auto; discriminate].
      cbn [map fst marked] in Hm.
      destruct o; cbn in *; try discriminate; unfold invariant_produce, invariant_slurp, invariant_consider, inv_check in *; cbn in *.
      + destruct (p_produce P i) as [[i1 q]| |]; cbn in *; inversion HD; subst. now apply (IH _ _ _ HT).
      + destruct (p_slurp P i) as [[i1 q]| |]; cbn in *; inversion HD; subst. now apply (IH _ _ _ HT).
      + destruct (j <? n) eqn:Ej; [discriminate|]. apply Nat.ltb_ge in Ej. rewrite csub_ok in HD by lia. cbn in HD.
        destruct (p_consider P n i) as [[i1 q]| |]; cbn in *; inversion HD; subst.
        destruct (marked (map fst h)) as [m'|]; [|discriminate]. cbn in Hm. inversion Hm; subst.
        pose proof (IH _ _ _ HT eq_refl) as HI. cbn in HI. lia.
  Qed.

  Lemma invariant_overmark : forall s ys h s1 s2 m n, inv_active s = true ->
    p_do (invariant_producer P) PExpose s = Ret (s1, PASlice (Ok (inl ys))) ->
    p_trace (invariant_producer P) s1 h s2 -> marked (map fst h) = Some m -> length ys < m + n ->
    p_do (invariant_producer P) (PConsider n) s2 = Panic.
  Proof.
    intros [i b j] ys h s1 s2 m n Hb HD HT Hm Hn. cbn in Hb. subst b.
    cbn in HD. unfold invariant_expose, inv_check in HD. cbn in HD.
    destruct (p_expose P i) as [[i1 [[x|f]|e]]| |]; cbn in *; inversion HD; subst.
    pose proof (invariant_marked HT Hm) as HM. cbn in HM.
    unfold invariant_consider, inv_check. destruct (inv_active s2); cbn; auto.
    destruct (Nat.ltb_spec (inv_exposed s2) n); [reflexivity|lia].
  Qed.

  Context {R : S -> list T -> res F E -> nat -> Prop} {D : S -> Prop}.

  Definition inv_rel (s : invariant S) (xs : list T) (l : res F E) (k : nat) : Prop :=
    R (inv_inner s) xs l k /\ inv_active s = true /\ k <= inv_exposed s.
  Definition inv_end (s : invariant S) : Prop := D (inv_inner s) /\ inv_active s = false.

  Lemma invariant_core : lawful_producer_core P R D -> lawful_producer_core (invariant_producer P) inv_rel inv_end.
  Proof.
    intros L. constructor.
    - intros s xs l k (HR & _). exact (lp_wf L HR).
    - intros s xs l k (HR & H1 & H2). unfold inv_rel. splits; auto; [exact (lp_forget L HR)|lia].
    - intros [i b j] x xs l k (HR & H1 & H2). cbn in *. subst b.
      destruct (lp_produce L HR) as (i' & E1 & HR'). unfold invariant_produce, inv_check. cbn. rewrite E1. cbn.
      eexists. split; [reflexivity|]. unfold inv_rel; cbn. splits; auto. lia.
    - intros [i b j] l k (HR & H1 & H2). cbn in *. subst b.
      destruct (lp_produce_last L HR) as (i' & E1 & HD). unfold invariant_produce, inv_check. cbn. rewrite E1. cbn.
      eexists. split; [reflexivity|]. split; auto. now destruct l.
    - intros [i b j] xs l k (HR & H1 & H2) Hne. cbn in *. subst b.
      destruct (lp_expose L HR Hne) as (i' & ys & rest & E1 & H3 & H4 & HR'). unfold invariant_expose, inv_check. cbn. rewrite E1. cbn.
      do 3 eexists. split; [reflexivity|]. splits; eauto. unfold inv_rel; cbn. splits; auto.
    - intros [i b j] l k (HR & H1 & H2). cbn in *. subst b.
      destruct (lp_expose_last L HR) as (i' & E1 & HD). unfold invariant_expose, inv_check. cbn. rewrite E1. cbn.
      destruct l; cbn; (eexists; split; [reflexivity|]); split; auto.
    - intros [i b j] xs l k n (HR & H1 & H2) Hk Hn. cbn in *. subst b.
      destruct (lp_consider L n HR Hk Hn) as (i' & E1 & HR'). unfold invariant_consider, inv_check. cbn.
      destruct (Nat.ltb_spec j n); [lia|]. rewrite csub_ok by lia. cbn. rewrite E1. cbn.
      eexists. split; [reflexivity|]. unfold inv_rel; cbn. splits; auto. lia.
  Qed.

  Lemma invariant_lawful : lawful_producer_core P R D -> lawful_producer (invariant_producer P) inv_rel inv_end.
  Proof. intros L. apply default_lawful_producer; [|reflexivity]. now apply invariant_core. Qed.

  Lemma invariant_slurp_lawful : lawful_slurp P R D -> lawful_slurp (invariant_producer P) inv_rel inv_end.
  Proof.
    intros L [i b j] xs l k (HR & H1 & H2). cbn in *. subst b. unfold invariant_slurp, inv_check. cbn.
    destruct (L _ _ _ _ HR) as [(i' & E1 & HR')|(i' & e & E1 & Hx & He & HD)]; rewrite E1; cbn.
    - left. eexists. split; [reflexivity|]. unfold inv_rel; cbn. auto.
    - right. do 2 eexists. split; [reflexivity|]. splits; auto. split; auto.
  Qed.
End InvariantP.
Arguments inv_rel {S T F E} R s xs l k.
Arguments inv_end {S} D s.

Section InvariantC.
  Context {S T F E : Type} {C : bulk_consumer S T F E}.

  Lemma invariantc_do : forall o s s1 r j, c_do (invariant_noop_consumer C) o s = Ret (s1, r) ->
    match o with CConsumeSlots n => n <= j | _ => True end ->
    exists b j', c_do (invariant_consumer C) o (mk_invariant s true j) = Ret (mk_invariant s1 b j', r) /\
      (c_ends o r = false -> b = true) /\ (forall k, k <= j -> c_shown k o r <= j').
  Proof.
    intros o s s1 r j H Hn. destruct o; cbn in *.
    - unfold invariant_consume, inv_check. cbn.
      destruct (c_consume C x s) as [[i [[]|e]]| |]; cbn in *; inversion H; subst; do 2 eexists; (split; [reflexivity|]);
        split; cbn; auto; try discriminate; intros; lia.
    - unfold invariant_close, inv_check. cbn.
      destruct (c_close C f s) as [[i [[]|e]]| |]; cbn in *; inversion H; subst; do 2 eexists; (split; [reflexivity|]);
        split; cbn; auto; try discriminate; intros; lia.
    - unfold invariant_flush, inv_check. cbn.
      destruct (c_flush C s) as [[i [[]|e]]| |]; cbn in *; inversion H; subst; do 2 eexists; (split; [reflexivity|]);
        split; cbn; auto; try discriminate; intros; lia.
    - unfold invariant_expose_slots, inv_check. cbn.
      destruct (c_expose C s) as [[i [x|e]]| |]; cbn in *; inversion H; subst; do 2 eexists; (split; [reflexivity|]);
        split; cbn; auto; try discriminate; intros; lia.
    - inversion H; subst. unfold invariant_write. cbn. do 2 eexists; (split; [reflexivity|]); auto.
    - unfold invariant_consume_slots, inv_check. cbn. destruct (Nat.ltb_spec j n); [lia|]. rewrite csub_ok by lia. cbn.
      destruct (c_consume_slots C n s) as [[i q]| |]; cbn in *; inversion H; subst; do 2 eexists; (split; [reflexivity|]);
        split; cbn; auto; intros; lia.
    - unfold default_bulk_consume, invariant_expose_slots, inv_check in *. cbn in *.
      destruct (c_expose C s) as [[i [x|e]]| |]; cbn in *;
        try (inversion H; subst; do 2 eexists; (split; [reflexivity|]); split; cbn; auto; try discriminate; intros; lia).
      unfold invariant_write, invariant_consume_slots, inv_check. cbn [inv_inner inv_active inv_exposed].
      destruct (Nat.ltb_spec x (Nat.min x (length buf))); [lia|].
      rewrite csub_ok by lia. cbn [bind].
      destruct (c_consume_slots C _ _) as [[i2 [[]|e]]| |] in *; cbn in *; inversion H; subst; do 2 eexists; (split; [reflexivity|]);
        split; cbn; auto; intros; lia.
  Qed.

  Lemma invariantc_trace : forall h s s' k j, k <= j -> c_trace (invariant_noop_consumer C) s h s' -> c_rules k h ->
    exists b j', c_trace (invariant_consumer C) (mk_invariant s true j) h (mk_invariant s' b j').
  Proof.
    induction h as [|[o r] h IH]; intros s s' k j Hj HT HP; inversion HT; subst.
    - exists true, j. constructor.
    - cbn in HP. destruct HP as [Hn HP].
      match goal with H : c_do _ _ _ = Ret _ |- _ => rename H into HD end.
      destruct (@invariantc_do o s s1 r j HD) as (b & j1 & E1 & Hb & Hj1).
      { destruct o; auto. lia. }
      destruct (c_ends o r).
      + subst h. match goal with H : c_trace _ _ [] _ |- _ => inversion H; subst end.
        exists b, j1. econstructor; [exact E1|constructor].
      + rewrite (Hb eq_refl) in E1. destruct (IH s1 s' (c_shown k o r) j1) as (b' & j' & HT'); auto.
        exists b', j'. econstructor; eauto.
  Qed.

  Lemma invariantc_do_conv : forall o s s1 r, c_do (invariant_consumer C) o s = Ret (s1, r) ->
    c_do (invariant_noop_consumer C) o (inv_inner s) = Ret (inv_inner s1, r).
  Proof.
    intros o [i b j] s1 r H.
    destruct b; [|destruct o; cbn in H; unfold default_bulk_consume in H; try discriminate; now inversion H].
    destruct o; cbn in *; unfold default_bulk_consume, invariant_consume, invariant_close, invariant_flush, invariant_expose_slots, invariant_consume_slots, inv_check in *; cbn in *.
    - destruct (c_consume C x i) as [[i1 [[]|e]]| |]; cbn in *; now inversion H.
    - destruct (c_close C f i) as [[i1 [[]|e]]| |]; cbn in *; now inversion H.
    - destruct (c_flush C i) as [[i1 [[]|e]]| |]; cbn in *; now inversion H.
    - destruct (c_expose C i) as [[i1 [x|e]]| |]; cbn in *; now inversion H.
    - now inversion H.
    - destruct (j <? n) eqn:Ej; [discriminate|]. apply Nat.ltb_ge in Ej. rewrite csub_ok in H by lia. cbn in H.
      destruct (c_consume_slots C n i) as [[i1 q]| |]; cbn in *; now inversion H.
    - destruct (c_expose C i) as [[i1 [x|e]]| |]; cbn [bind] in *; try (now inversion H).
      cbn [inv_inner inv_active inv_exposed invariant_write] in H.
      destruct (Nat.ltb_spec x (Nat.min x (length buf))); [lia|]. rewrite csub_ok in H by lia. cbn [bind] in H.
      destruct (c_consume_slots C _ _) as [[i2 [[]|e]]| |] in *; cbn in *; now inversion H.
  Qed.

  Lemma invariantc_trace_conv : forall h s s', c_trace (invariant_consumer C) s h s' ->
    c_trace (invariant_noop_consumer C) (inv_inner s) h (inv_inner s').
  Proof.
    induction h as [|[o r] h IH]; intros s s' H; inversion H; subst; econstructor.
    - now apply invariantc_do_conv; eauto.
    - now apply IH.
  Qed.

  Lemma invariantc_inactive : forall o s, inv_active s = false -> (forall ys, o <> CWrite ys) ->
    c_do (invariant_consumer C) o s = Panic.
  Proof.
    intros o [i b j] H Hw. cbn in H. subst b. destruct o; try reflexivity. now destruct (Hw ys).
  Qed.

  Lemma invariantc_deactivates : forall o s s1 r, c_do (invariant_consumer C) o s = Ret (s1, r) -> c_ends o r = true ->
    match o with CConsumeSlots _ | CBulkConsume _ => False | _ => True end ->
    inv_active s1 = false.
  Proof.
    intros o [i b j] s1 r H He Ho.
    destruct b; [|destruct o; cbn in H; unfold default_bulk_consume in H; try discriminate; now inversion H].
    destruct o; cbn in *; unfold default_bulk_consume, invariant_consume, invariant_close, invariant_flush, invariant_expose_slots, invariant_consume_slots, inv_check in *; cbn in *; try contradiction.
    - destruct (c_consume C x i) as [[i1 [[]|e]]| |]; cbn in *; inversion H; subst; cbn in *; auto; discriminate.
    - destruct (c_close C f i) as [[i1 [[]|e]]| |]; cbn in *; inversion H; subst; cbn in *; auto; discriminate.
    - destruct (c_flush C i) as [[i1 [[]|e]]| |]; cbn in *; inversion H; subst; cbn in *; auto; discriminate.
    - destruct (c_expose C i) as [[i1 [x|e]]| |]; cbn in *; inversion H; subst; cbn in *; auto; discriminate.
    - inversion H; subst. discriminate.
  Qed.

  Lemma invariantc_marked : forall h s s' m, c_trace (invariant_consumer C) s h s' -> c_marked (map fst h) = Some m ->
    inv_exposed s' + m = inv_exposed s.
  Proof.
    induction h as [|[o r] h IH]; intros s s' m H Hm; inversion H; subst.
    - cbn in Hm. inversion Hm. lia.
    - match goal with H : c_do _ _ _ = Ret _ |- _ => rename H into HD end.
      match goal with H : c_trace _ s1 h s' |- _ => rename H into HT end.
      cbn [map fst c_marked] in Hm. destruct s as [i b j].
      destruct o; cbn in *; try discriminate; unfold invariant_consume, invariant_close, invariant_flush, invariant_consume_slots, inv_check in *; cbn in *;
        try (destruct b; [|discriminate]).
      + destruct (c_consume C x i) as [[i1 q]| |]; cbn in *; inversion HD; subst. now apply (IH _ _ _ HT).
      + destruct (c_close C f i) as [[i1 q]| |]; cbn in *; inversion HD; subst. now apply (IH _ _ _ HT).
      + destruct (c_flush C i) as [[i1 q]| |]; cbn in *; inversion HD; subst. now apply (IH _ _ _ HT).
      + inversion HD; subst. now apply (IH _ _ _ HT).
      + destruct (j <? n) eqn:Ej; [discriminate|]. apply Nat.ltb_ge in Ej. rewrite csub_ok in HD by lia. cbn in HD.
        destruct (c_consume_slots C n i) as [[i1 q]| |]; cbn in *; inversion HD; subst.
        destruct (c_marked (map fst h)) as [m'|]; [|discriminate]. cbn in Hm. inversion Hm; subst.
        pose proof (IH _ _ _ HT eq_refl) as HI. cbn in HI. lia.
  Qed.

  Lemma invariantc_overmark : forall s k h s1 s2 m n,
    c_do (invariant_consumer C) CExpose s = Ret (s1, CASlots (Ok k)) ->
    c_trace (invariant_consumer C) s1 h s2 -> c_marked (map fst h) = Some m -> k < m + n ->
    c_do (invariant_consumer C) (CConsumeSlots n) s2 = Panic.
  Proof.
    intros [i b j] k h s1 s2 m n HD HT Hm Hn.
    cbn in HD. unfold invariant_expose_slots, inv_check in HD. cbn in HD. destruct b; [|discriminate].
    destruct (c_expose C i) as [[i1 [x|e]]| |]; cbn in *; inversion HD; subst.
    pose proof (invariantc_marked HT Hm) as HM. cbn in HM.
    unfold invariant_consume_slots, inv_check. destruct (inv_active s2); cbn; auto.
    destruct (Nat.ltb_spec (inv_exposed s2) n); [reflexivity|lia].
  Qed.

  Context {A : Type} {M : machine A T F E} {R : S -> A -> nat -> list T -> Prop} {D : S -> A -> Prop}.

  Definition invc_rel (s : invariant S) (a : A) (k : nat) (w : list T) : Prop :=
    R (inv_inner s) a k w /\ inv_active s = true /\ k <= inv_exposed s.
  Definition invc_end (s : invariant S) (a : A) : Prop := D (inv_inner s) a.

  Lemma invariant_consumer_core : lawful_consumer_core C M R D ->
    lawful_consumer_core (invariant_consumer C) M invc_rel invc_end.
  Proof.
    intros L. constructor.
    - intros s a k w (HR & _). exact (lc_wf L HR).
    - intros s a k w (HR & H1 & H2). unfold invc_rel. splits; auto; [exact (lc_forget L HR)|lia].
    - intros [i b j] a k w x (HR & H1 & H2). cbn in *. subst b. unfold invariant_consume, inv_check. cbn.
      destruct (lc_consume L x HR) as (i' & E1 & HR'). rewrite E1. cbn. eexists. split; [reflexivity|].
      destruct (m_step M x a) as [a1 [[]|e]]; auto. unfold invc_rel; cbn. splits; auto. lia.
    - intros [i b j] a k w f (HR & H1 & H2). cbn in *. subst b. unfold invariant_close, inv_check. cbn.
      destruct (lc_close L f HR) as (i' & E1 & HR'). rewrite E1. cbn. eexists. split; [reflexivity|exact HR'].
    - intros [i b j] a k w (HR & H1 & H2). cbn in *. subst b. unfold invariant_flush, inv_check. cbn.
      destruct (lc_flush L HR) as (i' & E1 & HR'). rewrite E1. cbn. eexists. split; [reflexivity|].
      destruct (m_flush M a) as [a1 [[]|e]]; auto. unfold invc_rel; cbn. splits; auto.
    - intros [i b j] a k w (HR & H1 & H2). cbn in *. subst b. unfold invariant_expose_slots, inv_check. cbn.
      destruct (lc_expose L HR) as [(i' & n & E1 & Hn & HR')|(i' & e & a' & E1 & Hall & HD)]; rewrite E1; cbn.
      + left. do 2 eexists. split; [reflexivity|]. unfold invc_rel; cbn. splits; auto.
      + right. do 3 eexists. split; [reflexivity|]. split; auto.
    - intros [i b j] a k w ys (HR & H1 & H2) Hy. unfold invc_rel; cbn in *. splits; auto. now apply (lc_write L).
    - intros [i b j] a k w n (HR & H1 & H2) Hk Hn. cbn in *. subst b. unfold invariant_consume_slots, inv_check. cbn.
      pose proof (lc_wf L HR). destruct (Nat.ltb_spec j n); [lia|]. rewrite csub_ok by lia. cbn.
      pose proof (lc_consume_slots L n HR Hk Hn) as HS.
      destruct (m_feed M (firstn n w) a) as [[a1 c] [e|]]; destruct HS as (i' & E1 & HR'); rewrite E1; cbn;
        eexists; (split; [reflexivity|]); auto. unfold invc_rel; cbn. splits; auto. lia.
  Qed.

  Lemma invariant_consumer_lawful : lawful_consumer_core C M R D ->
    lawful_consumer (invariant_consumer C) M invc_rel invc_end.
  Proof. intros L. apply default_lawful_consumer; [|reflexivity]. now apply invariant_consumer_core. Qed.
End InvariantC.
Arguments invc_rel {S T A} R s a k w.
Arguments invc_end {S A} D s a.

(** ** Histories *)
Lemma limit_history :
  forall (S T F E : Type) (P : bulk_producer S T F E) R D s xs l k n h s' a',
  lawful_producer_core P R D -> R s xs l k ->
  (lawful_slurp P R D /\ (length xs = n -> exists f, l = Ok f)) \/ ~ In PSlurp (map fst h) ->
  p_history (limit_producer P) (limit_new s n) (PActive (firstn n xs) (limit_last n xs l) 0) h s' a' ->
  match a' with
  | PActive ys _ _ =>
      p_emitted [] h ++ ys = firstn n xs /\ p_last h = None /\
      R (lim_inner s') (skipn (length (p_emitted [] h)) xs) l 0
  | PEnded =>
      p_emitted [] h = firstn n xs /\
      if length xs <? n
      then p_last h = Some (match l with Ok f => Ok (Some f) | Err e => Err e end) /\ D (lim_inner s')
      else p_last h = Some (Ok None) /\ R (lim_inner s') (skipn n xs) l 0
  end.
Proof.
  intros S T F E P R D s xs l k n h s' a' L HR LS HH.
  assert (HE := p_history_emits (Nat.le_0_l _) HH). cbn [firstn] in HE.
  assert (HR' : p_rel (lim_rel R xs l n) (lim_end R D xs l n) s' a').
  { eapply lawful_p_history with (4 := HH).
    - now apply limit_lawful.
    - destruct LS as [[LS Hn]|LS]; [left; now apply limit_slurp_lawful|now right].
    - eapply lim_rel_new; exact HR. }
  destruct a' as [ys l' k'|]; cbn in HR'.
  - destruct HE as (HE & _ & Hl & _). splits; auto.
    destruct (lim_rel_inner L HR') as (H1 & H2 & H3 & H4).
    assert (H5 : p_emitted [] h = firstn (n - lim_remaining s') xs) by (eapply app_inv_tail; rewrite HE; symmetry; exact H2).
    rewrite H5, firstn_length, Nat.min_l by lia. exact H1.
  - destruct HE as (HE & Hl). split; auto. unfold lim_end, limit_last in *.
    destruct (length xs <? n); [|destruct HR']; split; auto.
Qed.

Lemma limit_slurp_refuted :
  exists (s : test_producer_state nat unit nat) n,
    tp_rel s [1] (Err 9) 0 /\
    ~ p_conforms (limit_producer test_producer) [PProduce; PSlurp] (limit_new s n)
        (PActive (firstn n [1]) (limit_last n [1] (Err 9)) 0).
Proof.
  exists (test_producer_build [1] (Err 9) None None), 1. split; [now apply tp_rel_build|].
  intros H. inversion H as [|? ? ? ? HB|? ? ? ? s1 r1 a1 HP1 HD1 HA1 H2]; subst; [apply HB; exact I|].
  vm_compute in HD1. injection HD1 as <- <-. destruct HA1 as [_ ->].
  inversion H2 as [|? ? ? ? HB|? ? ? ? s2 r2 a2 HP2 HD2 HA2 H3]; subst; [apply HB; exact I|].
  vm_compute in HD2. injection HD2 as <- <-. cbn in HA2.
  destruct HA2 as [[HA2 _]|(e & _ & HA2 & _)]; discriminate.
Qed.

Lemma limit_consumer_history :
  forall (S A T F E : Type) (C : bulk_consumer S T F E) (M : machine A T F E) R D (x0 : T) s a k w n h s' c',
  lawful_consumer_core C M R D -> R s a k w ->
  c_history (limit_consumer C) (limit_machine M) (limit_new s n) (CActive (n, a) 0 []) h s' c' ->
  match c' with
  | CActive (n', a') _ _ =>
      n' + length (c_consumed [] h) = n /\ R (lim_inner s') a' 0 [] /\
      (passive M -> m_feed M (c_consumed [] h) a = (a', length (c_consumed [] h), None))
  | CEnded (n', a') => D (lim_inner s') a' \/ (n' = 0 /\ R (lim_inner s') a' 0 [])
  end.
Proof.
  intros S A T F E C M R D x0 s a k w n h s' c' L HR HH.
  assert (HR' : c_rel (limc_rel R) (limc_end R D) s' c').
  { eapply (lawful_c_history x0) with (3 := HH).
    - now apply limit_consumer_lawful.
    - exact (limc_rel_new _ _ _ _ n L HR). }
  destruct c' as [[n' a'] k' w'|[n' a']]; cbn in HR'.
  - pose proof (limit_count HH) as HC. destruct HR' as (H1 & H2 & ki & H3 & H4). cbn in *. splits; auto.
    + exact (lc_forget L H3).
    + intros HM. apply c_history_feeds in HH.
      * rewrite limit_feed in HH by lia.
        destruct (m_feed M (c_consumed [] h) a) as [[a1 c1] [e1|]]; inversion HH; subst; auto.
      * intros [n1 a1] [n2 a2]. cbn. destruct (m_flush M a1) as [a3 [[]|e]] eqn:E1; cbn; intros H; inversion H; subst.
        now apply HM in E1 as ->.
  - exact HR'.
Qed.

Lemma limit_consumer_refuses :
  forall (S A T F E : Type) (C : bulk_consumer S T F E) (M : machine A T F E) R D (x0 : T) s a k w n h s' n' a' k' w',
  lawful_consumer_core C M R D -> R s a k w ->
  c_history (limit_consumer C) (limit_machine M) (limit_new s n) (CActive (n, a) 0 []) h s' (CActive (n', a') k' w') ->
  length (c_consumed [] h) = n ->
  (forall x, c_consume (limit_consumer C) x s' = Ret (s', Err None)) /\
  c_expose (limit_consumer C) s' = Ret (s', Err None).
Proof.
  intros S A T F E C M R D x0 s a k w n h s' n' a' k' w' L HR HH Hn.
  assert (HR' : c_rel (limc_rel R) (limc_end R D) s' (CActive (n', a') k' w')).
  { eapply (lawful_c_history x0) with (3 := HH).
    - now apply limit_consumer_lawful.
    - exact (limc_rel_new _ _ _ _ n L HR). }
  pose proof (limit_count HH) as HC. destruct HR' as (H1 & _). cbn in H1.
  assert (H0 : lim_remaining s' = 0) by lia.
  split; [intros x|]; cbn; unfold limit_consume, limit_expose_slots; rewrite H0; reflexivity.
Qed.

Lemma map_error_refuted :
  (exists (s : from_slice nat) s1 r1 s2 r2,
     p_trace (invariant_noop_producer from_slice_producer) s [(PProduce, r1); (PProduce, r2)] s2 /\
     p_ends r1 = false /\ p_ends r2 = false /\
     p_do (map_error_producer from_slice_producer) PProduce (with_fun_new s (fun e : infallible => e)) = Ret (s1, r1) /\
     p_do (map_error_producer from_slice_producer) PProduce s1 = Panic) /\
  (exists (s : into_vec nat) s1 s2,
     c_trace (invariant_noop_consumer (into_vec_consumer 0)) s [(CConsume 1, CAUnit (Ok tt)); (CConsume 2, CAUnit (Ok tt))] s2 /\
     c_do (map_error_consumer (into_vec_consumer 0)) (CConsume 1) (with_fun_new s (fun e : infallible => e)) = Ret (s1, CAUnit (Ok tt)) /\
     c_do (map_error_consumer (into_vec_consumer 0)) (CConsume 2) s1 = Panic).
Proof.
  split.
  - exists (from_slice_new [1; 2]). do 4 eexists.
    split; [repeat (eapply p_trace_step; [reflexivity|]); constructor|]. repeat split.
  - exists into_vec_new. do 2 eexists.
    split; [repeat (eapply c_trace_step; [reflexivity|]); constructor|]. repeat split.
Qed.

Lemma map_error_second_call :
  forall (S T F E B : Type) (P : bulk_producer S T F E) (C : bulk_consumer S T F E),
  (forall s h s', p_trace (map_error_producer (B := B) P) s h s' -> length h <= 1) /\
  (forall s h s', c_trace (map_error_consumer (B := B) C) s h s' ->
     length (filter (fun x => match fst x with CWrite _ => false | _ => true end) h) <= 1) /\
  (forall (g : E -> B) s buf ys s1, p_expose P s = Ret (s1, Ok (inl ys)) ->
     forall s2 r, p_bulk_produce (map_error_producer P) buf (with_fun_new s g) <> Ret (s2, r)) /\
  (forall (g : E -> B) s buf k s1, c_expose C s = Ret (s1, Ok k) ->
     forall s2 r, c_bulk_consume (map_error_consumer C) buf (with_fun_new s g) <> Ret (s2, r)).
Proof.
  intros S T F E B P C. splits.
  - intros s h s' H. inversion H as [|? o s1 r h1 ? HD1 H1]; subst; cbn; [lia|].
    inversion H1 as [|? o2 s2 r2 h2 ? HD2 H2]; subst; cbn; [lia|].
    apply map_error_producer_do in HD1 as [HD1 _]. apply map_error_producer_do in HD2 as [_ HD2]. contradiction.
  - assert (HN : forall h s s', c_trace (map_error_consumer (B := B) C) s h s' -> wf_fun s = None ->
      length (filter (fun x => match fst x with CWrite _ => false | _ => true end) h) = 0).
    { induction h as [|[o r] h IH]; intros s s' H Hs; inversion H as [|? ? s1 ? ? ? HD1 H1]; subst; auto.
      apply map_error_consumer_do in HD1. destruct o; try (exfalso; now apply HD1).
      cbn. apply (IH _ _ H1). congruence. }
    intros s h. revert s. induction h as [|[o r] h IH]; intros s s' H; inversion H as [|? ? s1 ? ? ? HD1 H1]; subst; cbn; [lia|].
    apply map_error_consumer_do in HD1. destruct o; cbn; try (rewrite (HN _ _ _ H1); [lia|apply HD1]).
    exact (IH _ _ H1).
  - intros g s buf ys s1 H s2 r. cbn. unfold default_bulk_produce. rewrite (map_error_first _ _ g H). cbn.
    match goal with |- context [map_error_call ?c (mk_with_fun ?i None)] => destruct (map_error_none (B := B) c i) as [E1|E1] end;
      rewrite E1; discriminate.
  - intros g s buf k s1 H s2 r. cbn. unfold default_bulk_consume. cbn. rewrite (map_error_first _ _ g H). cbn.
    match goal with |- context [map_error_call ?c (mk_with_fun ?i None)] => destruct (map_error_none (B := B) c i) as [E1|E1] end;
      rewrite E1; discriminate.
Qed.

Lemma invariant_overmarking :
  (forall (S T F E : Type) (P : bulk_producer S T F E) s ys h s1 s2 m n,
     p_do (invariant_producer P) PExpose s = Ret (s1, PASlice (Ok (inl ys))) ->
     p_trace (invariant_producer P) s1 h s2 -> marked (map fst h) = Some m -> length ys < m + n ->
     p_do (invariant_producer P) (PConsider n) s2 = Panic) /\
  (forall (S T F E : Type) (C : bulk_consumer S T F E) s k h s1 s2 m n,
     c_do (invariant_consumer C) CExpose s = Ret (s1, CASlots (Ok k)) ->
     c_trace (invariant_consumer C) s1 h s2 -> c_marked (map fst h) = Some m -> k < m + n ->
     c_do (invariant_consumer C) (CConsumeSlots n) s2 = Panic) /\
  (forall (S T F E : Type) (P : bulk_producer S T F E) s h s2 m n,
     p_trace (invariant_producer P) (invariant_new s) h s2 -> marked (map fst h) = Some m -> 0 < n ->
     p_do (invariant_producer P) (PConsider n) s2 = Panic) /\
  (forall (S T F E : Type) (C : bulk_consumer S T F E) s h s2 m n,
     c_trace (invariant_consumer C) (invariant_new s) h s2 -> c_marked (map fst h) = Some m -> 0 < n ->
     c_do (invariant_consumer C) (CConsumeSlots n) s2 = Panic).
Proof.
  splits.
  - intros S T F E P s ys h s1 s2 m n HD. destruct (inv_active s) eqn:Ha.
    + now apply invariant_overmark with (1 := Ha).
    + rewrite invariant_inactive in HD by assumption. discriminate.
  - intros S T F E C s k h s1 s2 m n HD. now apply invariantc_overmark with (1 := HD).
  - intros S T F E P s h s2 m n HT Hm Hn. pose proof (invariant_marked HT Hm) as HM. cbn in *.
    unfold invariant_consider, inv_check. destruct (inv_active s2); cbn; auto.
    destruct (Nat.ltb_spec (inv_exposed s2) n); [reflexivity|lia].
  - intros S T F E C s h s2 m n HT Hm Hn. pose proof (invariantc_marked HT Hm) as HM. cbn in *.
    unfold invariant_consume_slots, inv_check. destruct (inv_active s2); cbn; auto.
    destruct (Nat.ltb_spec (inv_exposed s2) n); [reflexivity|lia].
Qed.

(** A producer that fails when items are marked. *)
Definition failing_consider : bulk_producer unit nat unit nat :=
  bulk_producer_of (fun s => Ret (s, Ok (inl 1))) (fun s => Ret (s, Ok tt)) (fun s => Ret (s, Ok (inl [1])))
    (fun _ s => Ret (s, Err 5)).

Lemma invariant_failed_marking :
  (exists (M : machine unit nat unit nat) R D s1 s2 r,
     let C := ref_consumer M 1 in
     lawful_consumer C M R D /\ R (tt, []) tt 0 [] /\
     c_trace (invariant_consumer C) (invariant_new (tt, []))
       [(CExpose, CASlots (Ok 1)); (CWrite [5], CANone); (CConsumeSlots 1, CAUnit (Err 5))] s1 /\
     c_do (invariant_consumer C) (CConsume 6) s1 = Ret (s2, r)) /\
  (exists (P : bulk_producer unit nat unit nat) s1 s2 r,
     p_trace (invariant_producer P) (invariant_new tt)
       [(PExpose, PASlice (Ok (inl [1]))); (PConsider 1, PAUnit (Err 5))] s1 /\
     p_do (invariant_producer P) PProduce s1 = Ret (s2, r)).
Proof.
  split.
  - exists (mk_machine (fun x a => (a, Err x)) (fun _ a => (a, Ok tt)) (fun a => (a, Ok tt))). do 5 eexists. cbv zeta. splits.
    + now apply ref_lawful.
    + apply ref_start.
    + repeat (eapply c_trace_step; [reflexivity|]). constructor.
    + reflexivity.
  - exists failing_consider. do 3 eexists. split; [repeat (eapply p_trace_step; [reflexivity|]); constructor|reflexivity].
Qed.

Lemma invariant_marking_stays_active :
  (forall (S T F E : Type) (P : bulk_producer S T F E) n s s1 r i,
     p_do (invariant_producer P) (PConsider n) s = Ret (s1, r) -> p_produce P (inv_inner s1) = Ret i ->
     exists s2, p_do (invariant_producer P) PProduce s1 = Ret (s2, PAItem (snd i)) /\ inv_inner s2 = fst i) /\
  (forall (S T F E : Type) (C : bulk_consumer S T F E) n s s1 r x i,
     c_do (invariant_consumer C) (CConsumeSlots n) s = Ret (s1, r) -> c_consume C x (inv_inner s1) = Ret i ->
     exists s2, c_do (invariant_consumer C) (CConsume x) s1 = Ret (s2, CAUnit (snd i)) /\ inv_inner s2 = fst i).
Proof.
  split.
  - intros S T F E P n [j b m] s1 r [i q] H1 H2. cbn in H1. unfold invariant_consider, inv_check in H1. cbn in H1.
    destruct b; [|discriminate]. destruct (m <? n) eqn:Em; [discriminate|]. apply Nat.ltb_ge in Em.
    rewrite csub_ok in H1 by lia. cbn in H1. destruct (p_consider P n j) as [[j' q']| |]; cbn in H1; inversion H1; subst.
    cbn in *. unfold invariant_produce, inv_check. cbn. rewrite H2. cbn. eexists. split; reflexivity.
  - intros S T F E C n [j b m] s1 r x [i q] H1 H2. cbn in H1. unfold invariant_consume_slots, inv_check in H1. cbn in H1.
    destruct b; [|discriminate]. destruct (m <? n) eqn:Em; [discriminate|]. apply Nat.ltb_ge in Em.
    rewrite csub_ok in H1 by lia. cbn in H1. destruct (c_consume_slots C n j) as [[j' q']| |]; cbn in H1; inversion H1; subst.
    cbn in *. unfold invariant_consume, inv_check. cbn. rewrite H2. cbn. eexists. split; reflexivity.
Qed.

Lemma invariant_stale :
  exists (h : list (cop nat unit * cans infallible)) s',
    h = [(CExpose, CASlots (Ok 1)); (CConsume 7, CAUnit (Ok tt)); (CConsumeSlots 1, CAUnit (Ok tt))] /\
    ~ c_rules 0 h /\
    c_trace (invariant_consumer (into_vec_consumer 0)) (invariant_new into_vec_new) h s' /\
    into_vec_as_ref (inv_inner s') = Panic.
Proof.
  do 2 eexists. splits; [reflexivity| | |].
  - cbn. lia.
  - repeat (eapply c_trace_step; [reflexivity|]). constructor.
  - reflexivity.
Qed.

(** Proofs about taking towers of adaptors apart. *)
From Coq Require Import Bool List Arith Lia.
From Verif Require Import Prelude ListFacts Traits Contracts ContractFacts PipeSpec QueueModel QueueSpec QueueProofs
  AdaptorModel AdaptorSpec AdaptorProofs ScramblerModel ScramblerProofs TowerModel TowerSpec TowerProofs ApartModel ApartSpec.
Import ListNotations.
Set Implicit Arguments.

(** Remembering the sequence with which it all began. *)
Definition anchored {S T F E} (full : list T) (l0 : res F E) (R : S -> list T -> res F E -> nat -> Prop)
    (s : S) (xs : list T) (l : res F E) (k : nat) : Prop :=
  R s xs l k /\ l = l0 /\ exists e, full = e ++ xs.

Lemma suffix_skipn : forall T (full e xs : list T) n, full = e ++ xs -> exists e', full = e' ++ skipn n xs.
Proof. intros T full e xs n ->. exists (e ++ firstn n xs). now rewrite <- app_assoc, firstn_skipn. Qed.

Lemma anchored_lawful : forall S T F E (P : bulk_producer S T F E) R D full l0,
  lawful_producer P R D -> lawful_producer P (anchored full l0 R) D.
Proof.
  intros S T F E P R D full l0 L. constructor; [constructor|].
  - intros s xs l k (HR & _). exact (lp_wf L HR).
  - intros s xs l k (HR & H). split; [exact (lp_forget L HR)|exact H].
  - intros s x xs l k (HR & -> & e & He). destruct (lp_produce L HR) as (s' & E1 & HR'). exists s'. split; [exact E1|].
    split; [exact HR'|]. split; [reflexivity|]. exact (suffix_skipn _ _ 1 He).
  - intros s l k (HR & _). exact (lp_produce_last L HR).
  - intros s xs l k (HR & H) Hne. destruct (lp_expose L HR Hne) as (s' & ys & rest & E1 & H1 & H2 & HR').
    exists s', ys, rest. refine (conj E1 (conj H1 (conj H2 (conj HR' H)))).
  - intros s l k (HR & _). exact (lp_expose_last L HR).
  - intros s xs l k n (HR & -> & e & He) Hk Hn. destruct (lp_consider L n HR Hk Hn) as (s' & E1 & HR').
    exists s'. split; [exact E1|]. split; [exact HR'|]. split; [reflexivity|]. exact (suffix_skipn _ _ n He).
  - intros s xs l k buf (HR & -> & e & He) Hb. pose proof (lp_bulk L buf HR Hb) as H. destruct xs as [|x xs]; [exact H|].
    destruct H as (s' & n & E1 & H1 & H2 & HR'). exists s', n. refine (conj E1 (conj H1 (conj H2 (conj HR' (conj eq_refl _))))). exact (suffix_skipn _ _ n He).
Qed.

Lemma anchored_slurp : forall S T F E (P : bulk_producer S T F E) R D full l0,
  lawful_slurp P R D -> lawful_slurp P (anchored full l0 R) D.
Proof.
  intros S T F E P R D full l0 L s xs l k (HR & H).
  destruct (L _ _ _ _ HR) as [(s' & E1 & HR')|(s' & e & E1 & H1 & H2 & H3)]; [left|right; eauto 6].
  exists s'. exact (conj E1 (conj HR' H)).
Qed.

(** Where the items are: [lost] in the buffers of the tower, [rest] in the innermost producer. *)
Definition apart {S T F E} (R : S -> list T -> res F E -> nat -> Prop) (D : S -> Prop) (l : res F E) (c : nat)
    (s : S) (lost rest : list T) : Prop :=
  length lost <= c /\ ((exists k, R s rest l k) \/ (D s /\ rest = [])).

Lemma pscr_rel_apart : forall S T F E (R : S -> list T -> res F E -> nat -> Prop) D cap ops s ys l k,
  pscr_rel R D cap ops s ys l k -> exists buf, length buf <= cap /\
    ((exists ys0 k0, R (ps_inner s) ys0 l k0 /\ ys = buf ++ ys0) \/ (D (ps_inner s) /\ ys = buf)).
Proof.
  intros S T F E R D cap ops s ys l k (buf & (HQ & _) & HH & Hk). exists buf. split.
  - destruct HQ as (_ & _ & _ & _ & Hq & _). lia.
  - unfold pscr_holds in HH. destruct (ps_last s).
    + right. destruct HH as (_ & -> & HD). auto.
    + left. exact HH.
Qed.

Lemma pt_apart : forall S T F E G (P : bulk_producer S T F E) R D s xs l k (t : ptower T F E G) (slurp : Prop),
  lawful_producer P R D -> R s xs l k -> (slurp -> lawful_slurp P R D) -> pt_ok slurp t xs l ->
  exists R' D', lawful_producer (pt_producer P t) R' D' /\
    R' (pt_new s t) (pt_items t xs) (pt_last t (length xs) l) 0 /\
    (slurp -> pt_slurps t xs l -> lawful_slurp (pt_producer P t) R' D') /\
    (forall s' ys l' k', R' s' ys l' k' -> exists e lost rest,
       pt_items t xs = e ++ ys /\ xs = e ++ lost ++ rest /\ apart R D l (pt_capacity t) (pt_into_inner t s') lost rest) /\
    (forall s', D' s' -> exists lost rest,
       xs = pt_items t xs ++ lost ++ rest /\ apart R D l (pt_capacity t) (pt_into_inner t s') lost rest).
Proof.
  intros S T F E G P R D s xs l k t slurp L HR LS. induction t as [|G n t IH|G B g t IH|G t IH|G dbg fuel x0 pat cap t IH]; intros OK.
  - exists (anchored xs l R), D. cbn. splits.
    + now apply anchored_lawful.
    + split; [now apply (lp_forget L) in HR|]. split; [reflexivity|]. now exists [].
    + intros H _. apply anchored_slurp; auto.
    + intros s' ys l' k' (HR' & -> & e & He). exists e, [], ys. splits; auto. split; [cbn; lia|]. left. eauto.
    + intros s' HD. exists [], []. rewrite !app_nil_r. split; [reflexivity|]. split; [cbn; lia|]. right. auto.
  - destruct (IH OK) as (R' & D' & L' & HR' & LS' & HA & HE).
    set (full := pt_items t xs) in *. set (l0 := pt_last t (length xs) l) in *.
    exists (lim_rel R' full l0 n), (lim_end R' D' full l0 n). rewrite pt_items_limit, pt_last_limit. fold full l0. splits.
    + exact (limit_lawful _ _ _ (lp_core L')).
    + now apply lim_rel_new with (1 := HR').
    + intros H [H1 H2]. apply limit_slurp_lawful; auto.
    + intros s' ys l' k' HL. pose proof HL as (ki & HRi & H1 & H2 & Hy & Hl & H3 & H4).
      destruct (HA _ _ _ _ HRi) as (e & lost & rest & He & Hx & Hap).
      assert (Hee : e = firstn (n - lim_remaining s') full).
      { apply app_inv_tail with (skipn (n - lim_remaining s') full). now rewrite firstn_skipn. }
      exists e, lost, rest. splits; auto. subst ys. rewrite Hee.
      rewrite firstn_app_skipn. f_equal. lia.
    + intros s' HL. unfold lim_end in HL. destruct (Nat.ltb_spec (length full) n) as [Hn|Hn].
      * destruct (HE _ HL) as (lost & rest & Hx & Hap). exists lost, rest. rewrite firstn_all2 by lia. auto.
      * destruct HL as [H0 HRi]. destruct (HA _ _ _ _ HRi) as (e & lost & rest & He & Hx & Hap).
        exists lost, rest. replace (firstn n full) with e; auto.
        apply app_inv_tail with (skipn n full). rewrite firstn_skipn. auto.
  - destruct (IH OK) as (R' & D' & L' & HR' & LS' & HA & HE).
    exists (mapf_rel g R'), (mapf_end D'). splits.
    + exact (map_final_lawful _ (lp_core L')).
    + split; [reflexivity|]. eexists. split; [exact HR'|]. cbn. destruct (pt_last t (length xs) l); reflexivity.
    + intros H H1. now apply map_final_slurp_lawful, LS'.
    + intros s' ys l' k' (_ & l1 & HRi & _). exact (HA _ _ _ _ HRi).
    + intros s' HD. exact (HE _ HD).
  - destruct (IH OK) as (R' & D' & L' & HR' & LS' & HA & HE).
    exists (inv_rel R'), (inv_end D'). splits.
    + exact (invariant_lawful (lp_core L')).
    + split; [exact HR'|split; [reflexivity|apply Nat.le_0_l]].
    + intros H H1. now apply invariant_slurp_lawful, LS'.
    + intros s' ys l' k' (HRi & _). exact (HA _ _ _ _ HRi).
    + intros s' [HD _]. exact (HE _ HD).
  - destruct OK as (OK & Hc & Hn & Hf & Hp). destruct (IH OK) as (R' & D' & L' & HR' & LS' & HA & HE).
    set (full := pt_items t xs) in *. set (l0 := pt_last t (length xs) l) in *.
    change (pt_items (PTScramble dbg fuel x0 pat cap t) xs) with full.
    change (pt_last (PTScramble dbg fuel x0 pat cap t) (length xs) l) with l0.
    assert (HF : Forall pscr_op_ok pat) by (apply Forall_forall; intros [| |] Hi; cbn; auto).
    exists (anchored full l0 (pscr_rel R' D' cap (pscr_operations pat))), (pscr_end D'). splits.
    + apply anchored_lawful.
      apply (@pscr_lawful _ _ _ _ dbg (pt_producer P t) R' D' L' cap (pscr_operations pat)).
      * destruct Hp as [Hp|[H1 H2]]; [right|left; auto]. intros H. apply Hp. now apply pscr_operations_slurp.
      * now apply pscr_operations_ok.
      * pose proof (pscr_operations_length pat). nia.
    + split; [now apply pscr_new_rel with (2 := HR')|]. split; [reflexivity|]. now exists [].
    + intros _ [].
    + intros s' ys l' k' (HP & -> & e & He).
      destruct (pscr_rel_apart HP) as (buf & Hb & [(ys0 & k0 & HRi & ->)|(HD & ->)]).
      * destruct (HA _ _ _ _ HRi) as (e0 & lost & rest & He0 & Hx & Hl & Hap).
        assert (e0 = e ++ buf) as ->.
        { apply app_inv_tail with ys0. rewrite <- app_assoc, <- He0. exact He. }
        exists e, (buf ++ lost), rest. splits; auto.
        -- rewrite Hx, <- !app_assoc. reflexivity.
        -- split; [rewrite app_length; cbn; lia|exact Hap].
      * destruct (HE _ HD) as (lost & rest & Hx & Hl & Hap).
        exists e, (buf ++ lost), rest. splits; auto.
        -- rewrite Hx, He, <- !app_assoc. reflexivity.
        -- split; [rewrite app_length; cbn; lia|exact Hap].
    + intros s' HD. destruct (HE _ HD) as (lost & rest & Hx & Hl & Hap). exists lost, rest. split; auto.
      split; [cbn; lia|exact Hap].
Qed.

Lemma pt_taken_apart :
  forall (S T F E G : Type) (P : bulk_producer S T F E) R D s xs l k (t : ptower T F E G) h s' a',
  lawful_producer P R D -> R s xs l k -> pt_ok (lawful_slurp P R D) t xs l ->
  ~ In PSlurp (map fst h) \/ (lawful_slurp P R D /\ pt_slurps t xs l) ->
  p_history (pt_producer P t) (pt_new s t) (PActive (pt_items t xs) (pt_last t (length xs) l) 0) h s' a' ->
  exists lost rest, xs = p_emitted [] h ++ lost ++ rest /\ length lost <= pt_capacity t /\
    (R (pt_into_inner t s') rest l 0 \/ (D (pt_into_inner t s') /\ rest = [])).
Proof.
  intros S T F E G P R D s xs l k t h s' a' L HR OK LS HH.
  destruct (@pt_apart _ _ _ _ _ _ _ _ _ _ _ _ t _ L HR (fun H => H) OK) as (R' & D' & L' & HR' & LS' & HA & HE).
  assert (HR2 : p_rel R' D' s' a').
  { eapply lawful_p_history with (4 := HH); auto. destruct LS as [LS|[LS1 LS2]]; auto. }
  pose proof (p_history_emits (Nat.le_0_l _) HH) as HM. cbn [firstn] in HM.
  destruct a' as [ys l' k'|]; cbn in HR2.
  - destruct HM as (HM & _). destruct (HA _ _ _ _ HR2) as (e & lost & rest & He & Hx & Hl & Hap).
    assert (p_emitted [] h = e) as -> by (eapply app_inv_tail; rewrite HM; exact He).
    exists lost, rest. splits; auto. destruct Hap as [[j Hj]|Hap]; auto. left. exact (lp_forget L Hj).
  - destruct HM as (HM & _). destruct (HE _ HR2) as (lost & rest & Hx & Hl & Hap). rewrite HM.
    exists lost, rest. splits; auto. destruct Hap as [[j Hj]|Hap]; auto. left. exact (lp_forget L Hj).
Qed.

(** ** Consumers *)
Lemma ct_apart : forall S A T F E G B (C : bulk_consumer S T F E) (M : machine A T F E) R D s a k w (t : ctower F E G B),
  lawful_consumer C M R D -> R s a k w ->
  exists R' D', lawful_consumer (ct_consumer C t) (ct_machine M t) R' D' /\ R' (ct_new s t) (ct_init a t) 0 [] /\
    (forall s' b k' w', R' s' b k' w' -> exists k0, R (ct_into_inner t s') (ct_core t b) k0 w') /\
    (forall s' b, D' s' b -> D (ct_into_inner t s') (ct_core t b) \/ R (ct_into_inner t s') (ct_core t b) 0 []).
Proof.
  intros S A T F E G B C M R D s a k w t L HR. induction t as [|G B n t IH|G B H g t IH|G B t IH].
  - exists R, D. splits; auto; [now apply (lc_forget L) in HR|]. cbn. eauto.
  - destruct IH as (R' & D' & L' & HR' & HA & HE). exists (limc_rel R'), (limc_end R' D'). splits.
    + exact (limit_consumer_lawful (lc_core L')).
    + now apply (@limc_rel_new _ _ _ _ _ _ _ _ _ _ _ _ _ n L') in HR'.
    + intros s' b k' w' (_ & _ & ki & HRi & _). exact (HA _ _ _ _ HRi).
    + intros s' b [HD|[_ HRi]]; [exact (HE _ _ HD)|]. right. destruct (HA _ _ _ _ HRi) as [k0 H0].
      exact (lc_forget L H0).
  - destruct IH as (R' & D' & L' & HR' & HA & HE). exists (mapfc_rel g R'), (mapfc_end D'). splits.
    + exact (map_final_consumer_lawful _ (lc_core L')).
    + split; auto.
    + intros s' b k' w' (_ & HRi). exact (HA _ _ _ _ HRi).
    + intros s' b HD. exact (HE _ _ HD).
  - destruct IH as (R' & D' & L' & HR' & HA & HE). exists (invc_rel R'), (invc_end D'). splits.
    + exact (invariant_consumer_lawful (lc_core L')).
    + split; [exact HR'|split; [reflexivity|apply Nat.le_0_l]].
    + intros s' b k' w' (HRi & _). exact (HA _ _ _ _ HRi).
    + intros s' b HD. exact (HE _ _ HD).
Qed.

Lemma ct_passive : forall A T F E G B (M : machine A T F E) (t : ctower F E G B), passive M -> passive (ct_machine M t).
Proof.
  intros A T F E G B M t HM. induction t as [|G B n t IH|G B H g t IH|G B t IH]; auto.
  intros [n1 a1] [n2 a2]. cbn. destruct (m_flush (ct_machine M t) a1) as [a3 [[]|e]] eqn:E1; cbn; intros H0; inversion H0; subst.
  now apply IH in E1 as ->.
Qed.

(** Feeding a tower successfully feeds what is inside. *)
Lemma ct_feed_core : forall A T F E G B (M : machine A T F E) (t : ctower F E G B) xs (b b' : ct_abs A t) n,
  m_feed (ct_machine M t) xs b = (b', n, None) -> m_feed M xs (ct_core t b) = (ct_core t b', n, None).
Proof.
  intros A T F E G B M t. induction xs as [|x xs IH]; intros b b' n H.
  - cbn in *. now injection H as <- <-.
  - cbn [m_feed] in *. pose proof (ct_step M t x b) as HS.
    assert (HS' : (exists b' e, m_step (ct_machine M t) x b = (b', Err e)) \/
      exists b', m_step (ct_machine M t) x b = (b', map_err (ct_error t) (snd (m_step M x (ct_core t b)))) /\
      ct_core t b' = fst (m_step M x (ct_core t b))).
    { destruct (ct_left t b) as [[|j]|].
      - destruct HS as (b1 & e & E1 & _). left. eauto.
      - destruct HS as (b1 & E1 & E2 & _). right. eauto.
      - destruct HS as (b1 & E1 & E2 & _). right. eauto. }
    destruct HS' as [(b1 & e & E1)|(b1 & E1 & E2)]; rewrite E1 in H; [discriminate|].
    destruct (m_step M x (ct_core t b)) as [a1 [[]|e]]; cbn [fst snd map_err] in *; [|discriminate]. subst a1.
    destruct (m_feed (ct_machine M t) xs b1) as [[b2 n2] o] eqn:E3. injection H as <- <- ->.
    now rewrite (IH _ _ _ E3).
Qed.

Lemma ct_taken_apart :
  forall (S A T F E G B : Type) (C : bulk_consumer S T F E) (M : machine A T F E) R D (x0 : T) s a k w (t : ctower F E G B) h s' c',
  lawful_consumer C M R D -> R s a k w ->
  c_history (ct_consumer C t) (ct_machine M t) (ct_new s t) (CActive (ct_init a t) 0 []) h s' c' ->
  match c' with
  | CActive b _ _ => R (ct_into_inner t s') (ct_core t b) 0 [] /\
      (passive M -> m_feed M (c_consumed [] h) a = (ct_core t b, length (c_consumed [] h), None))
  | CEnded b => D (ct_into_inner t s') (ct_core t b) \/ R (ct_into_inner t s') (ct_core t b) 0 []
  end.
Proof.
  intros S A T F E G B C M R D x0 s a k w t h s' c' L HR HH.
  destruct (@ct_apart _ _ _ _ _ _ _ _ _ _ _ _ _ _ _ t L HR) as (R' & D' & L' & HR' & HA & HE).
  assert (HR2 : c_rel R' D' s' c') by (eapply (lawful_c_history x0) with (3 := HH); auto).
  destruct c' as [b k' w'|b]; cbn in HR2; [|auto]. split.
  - destruct (HA _ _ _ _ HR2) as [k0 H0]. exact (lc_forget L H0).
  - intros HM. apply (c_history_feeds (ct_passive t HM)) in HH. apply ct_feed_core in HH.
    now rewrite (proj2 (ct_init_left t a)) in HH.
Qed.

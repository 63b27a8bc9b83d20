(** Proofs about towers of adaptors. *)
From Coq Require Import Bool List Arith Lia.
From Verif Require Import Prelude ListFacts Traits Contracts ContractFacts PipeSpec QueueModel AdaptorModel AdaptorSpec
  AdaptorProofs ScramblerModel ScramblerProofs TowerModel TowerSpec.
Import ListNotations.
Set Implicit Arguments.

Lemma pt_items_length : forall T F E G (t : ptower T F E G) xs,
  length (pt_items t xs) = match pt_limit t with None => length xs | Some k => Nat.min k (length xs) end.
Proof. intros. unfold pt_items. destruct (pt_limit t); auto. apply firstn_length. Qed.

Lemma pt_items_limit : forall T F E G (t : ptower T F E G) n xs,
  pt_items (PTLimit n t) xs = firstn n (pt_items t xs).
Proof. intros. unfold pt_items. cbn. destruct (pt_limit t); auto. now rewrite firstn_firstn. Qed.

Lemma pt_last_limit : forall T F E G (t : ptower T F E G) n xs l,
  pt_last (PTLimit n t) (length xs) l = limit_last n (pt_items t xs) (pt_last t (length xs) l).
Proof. intros. unfold limit_last. rewrite pt_items_length. reflexivity. Qed.

Lemma lawful_emits_all : forall S T F E (P : bulk_producer S T F E) R D xs s l k,
  lawful_producer P R D -> R s xs l k ->
  exists s' s'', emits P s xs s' /\ p_produce P s' = Ret (s'', report_last l).
Proof.
  intros S T F E P R D xs s l k L. revert s k. induction xs as [|x xs IH]; intros s k HR.
  - destruct (lp_produce_last L HR) as (s' & E1 & _). exists s, s'. split; [constructor|exact E1].
  - destruct (lp_produce L HR) as (s1 & E1 & HR1). destruct (IH _ _ HR1) as (s' & s'' & H1 & H2).
    exists s', s''. split; [econstructor; eauto|exact H2].
Qed.

(** The relation of the whole tower. *)
Lemma pt_lawful : forall S T F E G (P : bulk_producer S T F E) R D s xs l k (t : ptower T F E G) (slurp : Prop),
  lawful_producer P R D -> R s xs l k -> (slurp -> lawful_slurp P R D) -> pt_ok slurp t xs l ->
  exists R' D', lawful_producer (pt_producer P t) R' D' /\
    R' (pt_new s t) (pt_items t xs) (pt_last t (length xs) l) 0 /\
    (slurp -> pt_slurps t xs l -> lawful_slurp (pt_producer P t) R' D').
Proof.
  intros S T F E G P R D s xs l k t slurp L HR LS. induction t as [|G n t IH|G B g t IH|G t IH|G dbg fuel x0 pat cap t IH]; intros OK.
  - exists R, D. splits; auto. now apply (lp_forget L) in HR.
  - destruct (IH OK) as (R' & D' & L' & HR' & LS').
    exists (lim_rel R' (pt_items t xs) (pt_last t (length xs) l) n), (lim_end R' D' (pt_items t xs) (pt_last t (length xs) l) n).
    rewrite pt_items_limit, pt_last_limit. refine (conj _ (conj _ _)).
    + exact (limit_lawful _ _ _ (lp_core L')).
    + now apply lim_rel_new with (1 := HR').
    + intros H [H1 H2]. apply limit_slurp_lawful; auto.
  - destruct (IH OK) as (R' & D' & L' & HR' & LS').
    exists (mapf_rel g R'), (mapf_end D'). refine (conj _ (conj _ _)).
    + exact (map_final_lawful _ (lp_core L')).
    + split; [reflexivity|]. eexists. split; [exact HR'|]. cbn. destruct (pt_last t (length xs) l); reflexivity.
    + intros H H1. now apply map_final_slurp_lawful, LS'.
  - destruct (IH OK) as (R' & D' & L' & HR' & LS').
    exists (inv_rel R'), (inv_end D'). refine (conj _ (conj _ _)).
    + exact (invariant_lawful (lp_core L')).
    + split; [exact HR'|split; [reflexivity|apply Nat.le_0_l]].
    + intros H H1. now apply invariant_slurp_lawful, LS'.
  - destruct OK as (OK & Hc & Hn & Hf & Hp). destruct (IH OK) as (R' & D' & L' & HR' & LS').
    assert (HF : Forall pscr_op_ok pat) by (apply Forall_forall; intros [| |] Hi; cbn; auto).
    exists (pscr_rel R' D' cap (pscr_operations pat)), (pscr_end D'). refine (conj _ (conj _ _)).
    + apply (@pscr_lawful _ _ _ _ dbg (pt_producer P t) R' D' L' cap (pscr_operations pat)).
      * destruct Hp as [Hp|[H1 H2]]; [right|left; auto]. intros H. apply Hp. now apply pscr_operations_slurp.
      * now apply pscr_operations_ok.
      * pose proof (pscr_operations_length pat). nia.
    + now apply pscr_new_rel with (2 := HR').
    + intros _ [].
Qed.

(** ** Consumers *)
Lemma ct_lawful : forall S A T F E G B (C : bulk_consumer S T F E) (M : machine A T F E) R D s a k w (t : ctower F E G B),
  lawful_consumer C M R D -> R s a k w ->
  exists R' D', lawful_consumer (ct_consumer C t) (ct_machine M t) R' D' /\ R' (ct_new s t) (ct_init a t) 0 [].
Proof.
  intros S A T F E G B C M R D s a k w t L HR. induction t as [|G B n t IH|G B H g t IH|G B t IH].
  - exists R, D. split; auto. now apply (lc_forget L) in HR.
  - destruct IH as (R' & D' & L' & HR'). exists (limc_rel R'), (limc_end R' D'). split.
    + exact (limit_consumer_lawful (lc_core L')).
    + now apply (@limc_rel_new _ _ _ _ _ _ _ _ _ _ _ _ _ n L') in HR'.
  - destruct IH as (R' & D' & L' & HR'). exists (mapfc_rel g R'), (mapfc_end D'). split.
    + exact (map_final_consumer_lawful _ (lc_core L')).
    + split; auto.
  - destruct IH as (R' & D' & L' & HR'). exists (invc_rel R'), (invc_end D'). split.
    + exact (invariant_consumer_lawful (lc_core L')).
    + split; [exact HR'|split; [reflexivity|apply Nat.le_0_l]].
Qed.

Lemma ct_step : forall A T F E G B (M : machine A T F E) (t : ctower F E G B) x (b : ct_abs A t),
  match ct_left t b with
  | Some 0 => exists b' e, m_step (ct_machine M t) x b = (b', Err e) /\ ct_core t b' = ct_core t b /\
      (forall e0, e <> ct_error t e0)
  | _ => exists b', m_step (ct_machine M t) x b = (b', map_err (ct_error t) (snd (m_step M x (ct_core t b)))) /\
      ct_core t b' = fst (m_step M x (ct_core t b)) /\
      ct_left t b' = match snd (m_step M x (ct_core t b)) with
                     | Ok _ => option_map pred (ct_left t b)
                     | Err _ => ct_left t b'
                     end
  end.
Proof.
  intros A T F E G B M t x. induction t as [|G B n t IH|G B H g t IH|G B t IH]; intros b; cbn in *.
  - exists (fst (m_step M x b)). destruct (m_step M x b) as [b' [[]|e]]; cbn; auto.
  - destruct b as [[|m] b]; cbn in *.
    + assert (H0 : match ct_left t b with None => Some 0 | Some m => Some 0 end = Some 0) by (now destruct (ct_left t b)).
      rewrite H0. exists (0, b), None. splits; auto. discriminate.
    + specialize (IH b). destruct (ct_left t b) as [[|j]|] eqn:Ej; cbn in *.
      * destruct IH as (b' & e & E1 & E2 & E3). exists (m, b'), (Some e). rewrite E1. cbn. splits; auto.
        intros e0 [= He]. now apply (E3 e0).
      * destruct IH as (b' & E1 & E2 & E3). exists (m, b'). rewrite E1. cbn. splits; auto.
        -- destruct (m_step M x (ct_core t b)) as [a' [[]|e]]; reflexivity.
        -- destruct (m_step M x (ct_core t b)) as [a' [[]|e]]; cbn in *; auto. now rewrite E3.
      * destruct IH as (b' & E1 & E2 & E3). exists (m, b'). rewrite E1. cbn. splits; auto.
        -- destruct (m_step M x (ct_core t b)) as [a' [[]|e]]; reflexivity.
        -- destruct (m_step M x (ct_core t b)) as [a' [[]|e]]; cbn in *; auto. now rewrite E3.
  - exact (IH b).
  - exact (IH b).
Qed.

Lemma ct_init_left : forall A F E G B (t : ctower F E G B) (a : A),
  ct_left t (ct_init a t) = ct_limit t /\ ct_core t (ct_init a t) = a.
Proof. induction t; intros a; cbn; auto. destruct (IHt a) as [-> ->]. auto. Qed.

(** The prefix that the limits let through. *)
Definition cut {T} (n : option nat) (xs : list T) : list T := match n with None => xs | Some n => firstn n xs end.

Lemma ct_feed : forall A T F E G B (M : machine A T F E) (t : ctower F E G B) xs (b : ct_abs A t),
  match m_feed M (cut (ct_left t b) xs) (ct_core t b) with
  | (a', n, Some e) => exists b', m_feed (ct_machine M t) xs b = (b', n, Some (ct_error t e)) /\ ct_core t b' = a'
  | (a', n, None) =>
      if n <? length xs
      then exists b' e, m_feed (ct_machine M t) xs b = (b', n, Some e) /\ ct_core t b' = a' /\
             (forall e0, e <> ct_error t e0)
      else exists b', m_feed (ct_machine M t) xs b = (b', n, None) /\ ct_core t b' = a'
  end.
Proof.
  intros A T F E G B M t. induction xs as [|x xs IH]; intros b.
  - replace (cut (ct_left t b) []) with (@nil T) by (unfold cut; destruct (ct_left t b) as [[]|]; reflexivity).
    exists b. split; reflexivity.
  - pose proof (ct_step M t x b) as HS. destruct (ct_left t b) as [[|j]|] eqn:Ej; cbn [cut firstn m_feed] in *.
    + destruct HS as (b' & e & E1 & E2 & E3). cbn [length]. cbn. exists b', e. rewrite E1. auto.
    + destruct HS as (b' & E1 & E2 & E3). rewrite E1. specialize (IH b').
      destruct (m_step M x (ct_core t b)) as [a1 [[]|e]]; cbn [fst snd map_err] in *; [|eauto].
      rewrite E2, E3 in IH. cbn [option_map pred cut] in IH.
      destruct (m_feed M (firstn j xs) a1) as [[a2 n] [e|]].
      * destruct IH as (b2 & E4 & E5). rewrite E4. eauto.
      * change (Datatypes.S n <? length (x :: xs)) with (n <? length xs). destruct (n <? length xs).
        -- destruct IH as (b2 & e & E4 & E5 & E6). rewrite E4. eauto 6.
        -- destruct IH as (b2 & E4 & E5). rewrite E4. eauto.
    + destruct HS as (b' & E1 & E2 & E3). rewrite E1. specialize (IH b').
      destruct (m_step M x (ct_core t b)) as [a1 [[]|e]]; cbn [fst snd map_err] in *; [|eauto].
      rewrite E2, E3 in IH. cbn [option_map pred cut] in IH.
      destruct (m_feed M xs a1) as [[a2 n] [e|]].
      * destruct IH as (b2 & E4 & E5). rewrite E4. eauto.
      * change (Datatypes.S n <? length (x :: xs)) with (n <? length xs). destruct (n <? length xs).
        -- destruct IH as (b2 & e & E4 & E5 & E6). rewrite E4. eauto 6.
        -- destruct IH as (b2 & E4 & E5). rewrite E4. eauto.
Qed.

Lemma ct_finish : forall A T F E G B (M : machine A T F E) (t : ctower F E G B) f (b : ct_abs A t),
  exists b', m_finish (ct_machine M t) f b =
    (b', map_err (ct_error t) (snd (m_finish M (ct_final t f) (ct_core t b)))) /\
    ct_core t b' = fst (m_finish M (ct_final t f) (ct_core t b)).
Proof.
  intros A T F E G B M t. induction t as [|G B n t IH|G B H g t IH|G B t IH]; intros f b; cbn in *.
  - exists (fst (m_finish M f b)). destruct (m_finish M f b) as [b' [[]|e]]; auto.
  - destruct b as [m b]. destruct (IH f b) as (b' & E1 & E2). exists (m, b'). cbn. rewrite E1.
    cbn. split; auto. destruct (m_finish M (ct_final t f) (ct_core t b)) as [a' [[]|e]]; reflexivity.
  - apply IH.
  - apply IH.
Qed.

(** Proofs about reaching inside adaptors. *)
From Coq Require Import Bool List Arith Lia.
From Verif Require Import Prelude ListFacts Traits Contracts ContractFacts BasicModel BasicSpec BasicProofs QueueModel QueueSpec QueueProofs
  AdaptorModel AdaptorSpec AdaptorProofs BufferedSpec BufferedFacts ScramblerModel ScramblerProofs PublicModel PublicProofs MergeSpec MergeProofs
  ApartProofs SliceModel SliceSpec SliceProofs ReachModel ReachSpec.
Import ListNotations.
Set Implicit Arguments.

Lemma firstn_app_length : forall T (xs ys : list T), firstn (length xs) (xs ++ ys) = xs.
Proof. intros T xs ys. now rewrite firstn_app, firstn_all, Nat.sub_diag, app_nil_r. Qed.
Lemma skipn_app_length : forall T (xs ys : list T), skipn (length xs) (xs ++ ys) = ys.
Proof. intros T xs ys. now rewrite skipn_app, skipn_all, Nat.sub_diag. Qed.

Section Ways.
  Context {T : Type}.
  Lemma way_app : forall b (l1 l2 : list (bool * T)), way b (l1 ++ l2) = way b l1 ++ way b l2.
  Proof. intros b l1 l2. unfold way. now rewrite filter_app, map_app. Qed.
  Lemma way_tagged : forall b c (xs : list T), way b (tagged c xs) = if eqb c b then xs else [].
  Proof.
    intros b c xs. unfold way, tagged. induction xs as [|x xs IH]; cbn; [now destruct (eqb c b)|].
    destruct (eqb c b); cbn; now rewrite IH.
  Qed.
  Lemma snd_tagged : forall c (xs : list T), map snd (tagged c xs) = xs.
  Proof. intros c xs. unfold tagged. rewrite map_map. cbn. apply map_id. Qed.
End Ways.

(** ** Rounds of calls of a producer *)
Section Rounds.
  Context {S T F E : Type} (P : bulk_producer S T F E) (R : S -> list T -> res F E -> nat -> Prop) (D : S -> Prop).
  Hypothesis L : lawful_producer P R D.

  Lemma p_round : forall h s s' xs l k k0,
    (lawful_slurp P R D \/ ~ In PSlurp (map fst h)) ->
    p_trace P s h s' -> p_client k0 h -> p_goes_on h -> R s xs l k -> k0 <= k ->
    exists ys k', p_history P s (PActive xs l k) h s' (PActive ys l k') /\ R s' ys l k'.
  Proof.
    induction h as [|[o r] h IH]; intros s s' xs l k k0 LS HT HC HG HR Hk.
    - inversion HT; subst. exists xs, k. split; [constructor|exact HR].
    - inversion HT as [|? ? s1 ? ? ? HD HT']; subst. destruct HC as [HC1 HC2].
      inversion HG as [|? ? G1 G2]; subst. cbn in G1. rewrite G1 in HC2.
      assert (HP : p_permitted (PActive xs l k) o) by (destruct o; cbn; auto; lia).
      assert (LS1 : lawful_slurp P R D \/ o <> PSlurp).
      { destruct LS as [LS|LS]; [now left|right]. intros ->. apply LS. now left. }
      assert (LS2 : lawful_slurp P R D \/ ~ In PSlurp (map fst h)).
      { destruct LS as [LS|LS]; [now left|right]. intros H. apply LS. now right. }
      destruct (@lawful_p_step _ _ _ _ P R D o s (PActive xs l k) L LS1 HR HP) as (s2 & r2 & a2 & E1 & HA & HR2).
      rewrite HD in E1. injection E1 as <- <-.
      assert (HN : exists ys k2, a2 = PActive ys l k2 /\ p_shown k0 o r <= k2).
      { destruct o; destruct r as [[[]|]|[]|[[]|]|? [[]|]]; cbn in G1; try discriminate; cbn [p_answer] in HA; try contradiction.
        - destruct xs as [|x xs]; [destruct HA as [HA _]; destruct l; discriminate|]. destruct HA as [_ ->]. do 2 eexists. split; [reflexivity|]. cbn. lia.
        - destruct HA as [[_ ->]|(e & _ & _ & HA & _)]; [|discriminate]. do 2 eexists. split; [reflexivity|]. cbn. lia.
        - destruct xs as [|x xs]; [destruct HA as [HA _]; destruct l; discriminate|]. destruct HA as (ys & rest & _ & _ & [= <-] & ->).
          do 2 eexists. split; [reflexivity|]. cbn. lia.
        - destruct HA as [_ ->]. do 2 eexists. split; [reflexivity|]. cbn. lia.
        - destruct xs as [|x xs]; [destruct HA as [HA _]; destruct l; discriminate|]. destruct HA as (m & _ & _ & _ & _ & ->).
          do 2 eexists. split; [reflexivity|]. cbn. lia. }
      destruct HN as (ys & k2 & -> & Hk2). cbn in HR2.
      destruct (IH _ _ _ _ _ _ LS2 HT' HC2 G2 HR2 Hk2) as (zs & k3 & H1 & H2).
      exists zs, k3. split; [|exact H2]. eapply p_history_step; eauto.
  Qed.

  (** A round that starts with nothing on display takes the first items. *)
  Lemma p_round_takes : forall h s s' xs l k,
    (lawful_slurp P R D \/ ~ In PSlurp (map fst h)) ->
    p_trace P s h s' -> p_client 0 h -> p_goes_on h -> R s xs l k ->
    exists ys k', xs = p_emitted [] h ++ ys /\ R s' ys l k'.
  Proof.
    intros h s s' xs l k LS HT HC HG HR. pose proof (lp_forget L HR) as HR0.
    destruct (p_round LS HT HC HG HR0 (Nat.le_refl 0)) as (ys & k' & H1 & H2).
    apply p_history_emits in H1; [|lia]. destruct H1 as (H1 & _). exists ys, k'. split; [now symmetry|exact H2].
  Qed.

  (** After its end, nothing is known of a producer any more. *)
  Lemma lawful_forgets_end : lawful_producer P R (fun _ => True).
  Proof.
    constructor; [constructor|].
    - exact (fun s xs l k => lp_wf L).
    - exact (fun s xs l k => lp_forget L).
    - exact (fun s x xs l k => lp_produce L).
    - intros s l k H. destruct (lp_produce_last L H) as (s' & E1 & _). eauto.
    - exact (fun s xs l k => lp_expose L).
    - intros s l k H. destruct (lp_expose_last L H) as (s' & E1 & _). eauto.
    - exact (fun s xs l k n => lp_consider L n).
    - intros s xs l k buf H Hb. pose proof (lp_bulk L buf H Hb) as HB. destruct xs; [|exact HB]. destruct HB as (s' & E1 & _). eauto.
  Qed.

  Lemma slurp_forgets_end : lawful_slurp P R D -> lawful_slurp P R (fun _ => True).
  Proof.
    intros LS s xs l k H. destruct (LS _ _ _ _ H) as [(s' & E1 & HR')|(s' & e & E1 & H1 & H2 & _)]; [left|right]; eauto 6.
  Qed.
End Rounds.
Arguments p_round_takes {S T F E P R D} L {h s s' xs l k} _ _ _ _ _.

(** ** The scrambled producer *)
Section Held.
  Context {S T F E : Type} (dbg checks : bool) (P : bulk_producer S T F E) (R : S -> list T -> res F E -> nat -> Prop) (D : S -> Prop)
    (cap : nat) (ops : list pscr_op) (fuel : nat).
  Notation Q := (public_producer checks (pscr_producer dbg fuel P)).

  (** [ahead] is in the buffer, [rest] in the inner producer. *)
  Definition held R' (s : invariant (pscr S T F E)) (ahead rest : list T) (l : res F E) : Prop :=
    pscr_wf cap ops (inv_inner s) ahead /\ (checks = true -> inv_active s = true) /\
    match ps_last (inv_inner s) with
    | None => exists k : nat, R' (ps_inner (inv_inner s)) rest l k
    | Some l' => l' = l /\ rest = [] /\ D (ps_inner (inv_inner s))
    end.

  Lemma held_rel : forall R' s ahead rest l, held R' s ahead rest l ->
    pub_rel (pscr_rel R' D cap ops) checks s (ahead ++ rest) l 0.
  Proof.
    intros R' [s b j] ahead rest l (H1 & H2 & H3). cbn in *.
    assert (HP : pscr_rel R' D cap ops s (ahead ++ rest) l 0).
    { exists ahead. split; [exact H1|]. split; [|lia]. unfold pscr_holds. destruct (ps_last s).
      - destruct H3 as (-> & -> & H3). rewrite app_nil_r. auto.
      - destruct H3 as (k & H3). eauto. }
    unfold pub_rel. destruct checks; [|exact HP]. unfold inv_rel. cbn. split; [exact HP|]. split; [auto|lia].
  Qed.

  Lemma rel_held : forall R' s ys l k, pub_rel (pscr_rel R' D cap ops) checks s ys l k ->
    exists ahead rest, ys = ahead ++ rest /\ held R' s ahead rest l.
  Proof.
    intros R' [s b j] ys l k H.
    assert (HP : pscr_rel R' D cap ops s ys l k /\ (checks = true -> b = true)).
    { unfold pub_rel in H. destruct checks; [|split; [exact H|discriminate]]. destruct H as (H1 & H2 & _). auto. }
    destruct HP as [(buf & H1 & H2 & _) H3]. unfold pscr_holds in H2. unfold held. cbn. destruct (ps_last s).
    - destruct H2 as (-> & -> & H2). exists buf, []. rewrite app_nil_r. splits; auto.
    - destruct H2 as (zs & k0 & H2 & ->). exists buf, zs. split; [reflexivity|]. split; [exact H1|]. split; [exact H3|]. eauto.
  Qed.

  Lemma held_new : forall x0 s xs l k pat, 0 < cap -> R s xs l k -> Forall pscr_op_ok pat -> ops = pscr_operations pat ->
    held R (public_pscr_new x0 s pat cap) [] xs l.
  Proof.
    intros x0 s xs l k pat Hc HR HF He. assert (HN : pscr_rel R D cap (pscr_operations pat) (pscr_new_with_capacity x0 s pat cap) xs l 0) by (eapply pscr_new_rel; eauto).
    destruct HN as (buf & H1 & H2 & _).
    split; [|split; [auto|exists k; exact HR]]. destruct H1 as (H1 & H3 & H4). split; [now apply fixed_new_R|]. rewrite He. split; [exact H3|exact H4].
  Qed.

  Lemma held_ahead : forall R' s ahead rest l, held R' s ahead rest l -> length ahead <= cap.
  Proof. intros R' s ahead rest l ((HQ & _) & _). destruct HQ as (_ & _ & _ & _ & Hq & _). lia. Qed.

  Lemma held_inner : forall R' s ahead rest l, held R' s ahead rest l ->
    (exists k, R' (public_pscr_as_ref s) rest l k) \/ (D (public_pscr_as_ref s) /\ rest = []).
  Proof. intros R' s ahead rest l (_ & _ & H). unfold public_pscr_as_ref. cbn. destruct (ps_last (inv_inner s)); [right; tauto|now left]. Qed.

  Lemma held_case : forall R' s ahead rest l, held R' s ahead rest l ->
    ((exists k, R' (public_pscr_as_ref s) rest l k) /\
     forall i rest' l' k, R' i rest' l' k -> held R' (public_pscr_as_mut i s) ahead rest' l') \/
    (rest = [] /\ forall i, D i -> held R' (public_pscr_as_mut i s) ahead [] l).
  Proof.
    intros R' s ahead rest l (H1 & H2 & H3).
    unfold held, public_pscr_as_mut, invariant_as_mut, pscr_as_mut, invariant_as_ref. cbn [inv_inner inv_active ps_last ps_inner].
    destruct (ps_last (inv_inner s)); [right|left].
    - destruct H3 as (H3 & -> & H4). split; [reflexivity|]. intros i HD. split; [exact H1|]. auto.
    - split; [exact H3|]. intros i rest' l' k H. split; [exact H1|]. split; [exact H2|]. exists k. exact H.
  Qed.

  Lemma held_live : forall R' s ahead rest l, held R' s ahead rest l -> ~ D (public_pscr_as_ref s) ->
    (exists k, R' (public_pscr_as_ref s) rest l k) /\
    forall i rest' l' k, R' i rest' l' k -> held R' (public_pscr_as_mut i s) ahead rest' l'.
  Proof.
    intros R' s ahead rest l (H1 & H2 & H3) HD. unfold public_pscr_as_ref in HD. cbn in HD.
    unfold held, public_pscr_as_mut, invariant_as_mut, pscr_as_mut, invariant_as_ref. cbn [inv_inner inv_active ps_last ps_inner].
    destruct (ps_last (inv_inner s)); [destruct HD; tauto|]. split; [exact H3|].
    intros i rest' l' k H. split; [exact H1|]. split; [exact H2|]. exists k. exact H.
  Qed.

  Hypothesis OK : pscr_ops_ok ops.
  Hypothesis Hf : Datatypes.S cap * length ops <= fuel.
  Hypothesis L : lawful_producer P R D.
  Hypothesis LS : lawful_slurp P R D \/ ~ In ScSlurp ops.

  Lemma held_conforms : forall s ahead rest l, held R s ahead rest l -> forall os, ~ In PSlurp os ->
    p_conforms Q os s (PActive (ahead ++ rest) l 0).
  Proof.
    intros s ahead rest l H os Hn.
    apply (lawful_p_conforms os (s := s) (a := PActive (ahead ++ rest) l 0)
      (public_lawful checks (lp_core (@pscr_lawful _ _ _ _ dbg P R D (lp_core L) cap ops LS OK fuel Hf)))); [now right|].
    exact (held_rel H).
  Qed.

  (** A round of calls of the scrambler. *)
  Lemma held_round : forall s ahead rest l h s', held R s ahead rest l ->
    p_trace Q s h s' -> p_client 0 h -> p_goes_on h -> ~ In PSlurp (map fst h) ->
    exists ahead' mid rest', rest = mid ++ rest' /\ ahead ++ mid = p_emitted [] h ++ ahead' /\ held R s' ahead' rest' l.
  Proof.
    intros s ahead rest l h s' (H1 & H2 & H3) HT HC HG Hn.
    set (R' := anchored rest l R).
    assert (L' : lawful_producer P R' D) by now apply anchored_lawful.
    assert (LS' : lawful_slurp P R' D \/ ~ In ScSlurp ops) by (destruct LS; [left; now apply anchored_slurp|now right]).
    assert (HH : held R' s ahead rest l).
    { split; [exact H1|]. split; [exact H2|]. destruct (ps_last (inv_inner s)); [exact H3|]. destruct H3 as (k & H3).
      exists k. split; [exact H3|]. split; [reflexivity|]. now exists []. }
    destruct (p_round_takes (public_lawful checks (lp_core (@pscr_lawful _ _ _ _ dbg P R' D (lp_core L') cap ops LS' OK fuel Hf)))
      (or_intror Hn) HT HC HG (held_rel HH)) as (ys & k' & He & HR').
    destruct (@rel_held _ _ _ _ _ HR') as (ahead' & rest' & -> & (J1 & J2 & J3)).
    assert (HM : exists mid, rest = mid ++ rest').
    { destruct (ps_last (inv_inner s')); [destruct J3 as (_ & -> & _); exists rest; now rewrite app_nil_r|].
      destruct J3 as (k & _ & _ & e & J3). eauto. }
    destruct HM as (mid & ->). exists ahead', mid, rest'. split; [reflexivity|]. split.
    - apply app_inv_tail with rest'. rewrite <- !app_assoc. exact He.
    - split; [exact J1|]. split; [exact J2|]. destruct (ps_last (inv_inner s')); [exact J3|]. destruct J3 as (k & J3 & _). eauto.
  Qed.

  Lemma held_mixed : lawful_slurp P R D -> forall s xs l log s', held R s [] xs l ->
    p_mixed Q P D public_pscr_as_ref public_pscr_as_mut s log s' ->
    exists ahead rest taken, xs = taken ++ rest /\ interleave (way true log ++ ahead) (way false log) taken /\ held R s' ahead rest l.
  Proof.
    intros LP s xs l log s' HH HM.
    induction HM as [|log s1 h s2 HM IH HT HC HG Hn|log s1 h i HM IH HD HT HC HG].
    - exists [], xs, []. split; [reflexivity|]. split; [constructor|exact HH].
    - destruct IH as (ahead & rest & taken & -> & I2 & I3).
      destruct (held_round I3 HT HC HG Hn) as (ahead' & mid & rest' & -> & J2 & J3).
      exists ahead', rest', (taken ++ mid). split; [now rewrite <- app_assoc|]. split; [|exact J3].
      rewrite !way_app, !way_tagged. cbn [eqb]. rewrite app_nil_r, <- app_assoc, <- J2, app_assoc.
      rewrite <- (app_nil_r (way false log)). apply il_app; [exact I2|apply il_nil_r].
    - destruct IH as (ahead & rest & taken & -> & I2 & I3). destruct (held_live I3 HD) as [(k & HR) HI].
      destruct (p_round_takes L (or_introl LP) HT HC HG HR) as (ys & k' & -> & HR').
      exists ahead, ys, (taken ++ p_emitted [] h). split; [now rewrite <- app_assoc|]. split; [|exact (HI _ _ _ _ HR')].
      rewrite !way_app, !way_tagged. cbn [eqb]. rewrite app_nil_r.
      rewrite <- (app_nil_r (way true log ++ ahead)). apply il_app; [exact I2|apply il_nil_l].
  Qed.
End Held.

(** ** The checker around a producer *)
Section Checked.
  Context {S T F E : Type} (checks : bool) (P : bulk_producer S T F E) (R : S -> list T -> res F E -> nat -> Prop) (D : S -> Prop).
  Hypothesis L : lawful_producer P R D.
  Hypothesis LS : lawful_slurp P R D.

  Lemma pub_rel_reach : forall s xs l k i ys l' k', pub_rel R checks s xs l k -> R i ys l' k' ->
    (exists k1, R (invariant_as_ref s) xs l k1) /\ pub_rel R checks (invariant_as_mut i s) ys l' 0.
  Proof.
    intros s xs l k i ys l' k' H HI. apply (lp_forget L) in HI. unfold pub_rel in *. destruct checks.
    - destruct H as (H1 & H2 & _). split; [eauto|]. unfold inv_rel. cbn. split; [exact HI|]. split; [exact H2|lia].
    - split; [eauto|exact HI].
  Qed.

  Lemma checked_mixed : forall s xs l k log s', R s xs l k ->
    p_mixed (public_producer checks P) P D invariant_as_ref invariant_as_mut (invariant_new s) log s' ->
    exists rest, xs = map snd log ++ rest /\ exists k', pub_rel R checks s' rest l k'.
  Proof.
    intros s xs l k log s' HR HM. apply (lp_forget L) in HR. apply (public_rel_new checks) in HR.
    induction HM as [|log s1 h s2 HM IH HT HC HG Hn|log s1 h i HM IH HD HT HC HG].
    - exists xs. split; [reflexivity|]. eauto.
    - destruct IH as (rest & -> & k' & H). destruct (p_round_takes (public_lawful checks (lp_core L)) (or_intror Hn) HT HC HG H) as (ys & k2 & -> & H2).
      exists ys. split; [|eauto]. now rewrite map_app, snd_tagged, <- app_assoc.
    - destruct IH as (rest & -> & k' & H).
      assert (HI : exists k1, R (invariant_as_ref s1) rest l k1).
      { unfold pub_rel in H. destruct checks; [destruct H as (H & _)|]; eauto. }
      destruct HI as (k1 & HI). destruct (p_round_takes L (or_introl LS) HT HC HG HI) as (ys & k2 & -> & H2).
      exists ys. split; [now rewrite map_app, snd_tagged, <- app_assoc|]. exists 0.
      exact (proj2 (pub_rel_reach _ _ _ _ H H2)).
  Qed.
End Checked.

(** ** Consumers *)
Section ConsumerRounds.
  Context {S A T F E : Type} (C : bulk_consumer S T F E) (M : machine A T F E)
    (R : S -> A -> nat -> list T -> Prop) (D : S -> A -> Prop).
  Hypothesis L : lawful_consumer C M R D.

  Lemma c_round : forall h s s' a k w, c_trace C s h s' -> c_client k w h -> c_goes_on h -> R s a k w ->
    exists a' k' w', m_forwards M a (c_consumed w h) a' /\ R s' a' k' w'.
  Proof.
    induction h as [|[o r] h IH]; intros s s' a k w HT HC HG HR.
    - inversion HT; subst. exists a, k, w. split; [apply m_forwards_nil|exact HR].
    - inversion HT as [|? ? s1 ? ? ? HD HT']; subst. destruct HC as [HC1 HC2].
      inversion HG as [|? ? G1 G2]; subst. cbn [fst snd] in G1. rewrite G1 in HC2.
      assert (HP : c_permitted (F := F) (CActive a k w) o) by (destruct o; cbn; auto).
      destruct (@lawful_c_step _ _ _ _ _ C M R D o s (CActive a k w) L HR HP) as (s2 & r2 & a2 & E1 & HA & HR2).
      rewrite HD in E1. injection E1 as <- <-.
      destruct o; destruct r as [[u|]|[m|]|[m|]|]; cbn in G1; try discriminate; cbn [c_answer] in HA; try contradiction.
      + destruct HA as [H1 ->]. destruct (m_step M x a) as [a1 [u1|e]] eqn:E1; [|discriminate]. cbn in HR2.
        destruct (IH _ _ _ _ _ HT' HC2 G2 HR2) as (a' & k' & w' & J1 & J2). exists a', k', w'. split; [|exact J2].
        cbn [c_consumed]. change (x :: c_consumed [] h) with ([x] ++ c_consumed [] h).
        eapply m_forwards_trans; [|exact J1]. apply m_feed_forwards with 1. cbn. rewrite E1. reflexivity.
      + destruct HA as [H1 ->]. destruct (m_flush M a) as [a1 [[]|e]] eqn:E1; [|discriminate]. cbn in HR2.
        destruct (IH _ _ _ _ _ HT' HC2 G2 HR2) as (a' & k' & w' & J1 & J2). exists a', k', w'. split; [|exact J2].
        change (c_consumed w ((CFlush, CAUnit (Ok u)) :: h)) with ([] ++ c_consumed w h).
        eapply m_forwards_trans; [|exact J1]. now apply m_flush_forwards.
      + destruct HA as [(n & Hn & [= <-] & ->)|(e & a1 & _ & H1 & _)]; [|discriminate].
        exact (IH _ _ _ _ _ HT' HC2 G2 HR2).
      + subst a2. exact (IH _ _ _ _ _ HT' HC2 G2 HR2).
      + destruct (m_feed M (firstn n w) a) as [[a1 p] [e|]] eqn:E1; destruct HA as [H1 ->]; [discriminate|].
        destruct (IH _ _ _ _ _ HT' HC2 G2 HR2) as (a' & k' & w' & J1 & J2). exists a', k', w'. split; [|exact J2].
        cbn [c_consumed]. eapply m_forwards_trans; [|exact J1]. eapply m_feed_forwards; exact E1.
      + destruct HA as [(n & a1 & Hn & E1 & [= <-] & ->)|(n & e & a1 & E1 & H1 & _)]; [|discriminate].
        destruct (IH _ _ _ _ _ HT' HC2 G2 HR2) as (a' & k' & w' & J1 & J2). exists a', k', w'. split; [|exact J2].
        cbn [c_consumed]. eapply m_forwards_trans; [|exact J1]. eapply m_feed_forwards; exact E1.
  Qed.
End ConsumerRounds.
Arguments c_round {S A T F E C M R D} L {h s s' a k w} _ _ _ _.

Lemma publicc_trace : forall S T F E (C : bulk_consumer S T F E) checks,
  (forall buf s, c_bulk_consume C buf s = default_bulk_consume (c_expose C) (c_write C) (c_consume_slots C) buf s) ->
  forall s h s', c_trace (public_consumer checks C) s h s' -> c_trace C (inv_inner s) h (inv_inner s').
Proof.
  intros S T F E C checks HB s h s' H. induction H as [s|s o s1 r h s' HD HT IH]; [constructor|].
  eapply c_trace_step; [|exact IH]. exact (@publicc_do_conv _ _ _ _ C HB _ _ _ _ _ HD).
Qed.

Section Withheld.
  Context {S A T F E : Type} (x0 : T) (checks : bool) (C : bulk_consumer S T F E) (M : machine A T F E)
    (R : S -> A -> nat -> list T -> Prop) (D : S -> A -> Prop) (cap : nat) (ops : list cscr_op) (fuel : nat).
  Notation Q := (public_consumer checks (cscr_consumer false x0 fuel C)).

  Definition withheld (s : invariant (cscr S T)) (a : A) (pend : list T) : Prop := cscr_rel R cap ops (inv_inner s) a pend 0 [].

  Lemma withheld_forget : forall s a pend k w, cscr_rel R cap ops (inv_inner s) a pend k w -> withheld s a pend.
  Proof. intros s a pend k w ((H1 & H2) & H3). split; [|exact H3]. split; [exact (lq_forget (fixed_lawful cap) H1)|exact H2]. Qed.

  Lemma withheld_cap : forall s a pend, withheld s a pend -> length pend <= cap.
  Proof. intros s a pend ((HQ & _) & _). destruct HQ as (_ & _ & _ & _ & Hq & _). lia. Qed.

  Hypothesis L : lawful_consumer C M R D.
  Hypothesis OK : cscr_ops_ok ops.
  Hypothesis Hf : Datatypes.S cap * length ops <= fuel.

  Lemma withheld_round : forall s a pend h s', withheld s a pend -> c_trace Q s h s' -> c_client 0 [] h -> c_goes_on h ->
    exists out pend' a', out ++ pend' = pend ++ c_consumed [] h /\ m_forwards M a out a' /\ withheld s' a' pend'.
  Proof.
    intros s a pend h s' H HT HC HG. pose proof (withheld_cap H) as Hp.
    apply publicc_trace in HT; [|reflexivity].
    destruct (buffers_trace (@cscr_buffers _ _ _ _ _ x0 C M R D (lc_core L) cap ops OK fuel Hf) HT HC H) as ([a' pend' k w|a'] & H1 & H2).
    - destruct (b_run_active Hp H1) as (out & H3 & H4 & H5). exists out, pend', a'. split; [exact H3|]. split; [exact H5|]. eapply withheld_forget; exact H2.
    - exfalso. destruct (b_run_ended Hp H1) as (h0 & o & r & -> & H3). apply Forall_app in HG as [_ HG].
      inversion HG as [|? ? G _]; subst. cbn in G.
      destruct H3 as [(f & a1 & -> & _)|[(e & He & _)|(e & a1 & -> & -> & _)]]; try discriminate.
      destruct r as [[|]|[|]|[|]|]; cbn in He; try discriminate; destruct o; discriminate.
  Qed.

  Lemma withheld_reach : forall s a pend i a' k w, withheld s a pend -> R i a' k w -> withheld (public_cscr_as_mut i s) a' pend.
  Proof. intros s a pend i a' k w [H _] HI. split; [exact H|exact (lc_forget L HI)]. Qed.

  Lemma withheld_flush : forall s a pend s' r, withheld s a pend -> c_do Q CFlush s = Ret (s', CAUnit (Ok r)) ->
    exists a1 a2, m_forwards M a pend a1 /\ m_flush M a1 = (a2, Ok tt) /\ withheld s' a2 [].
  Proof.
    intros s a pend s' r H HD. apply publicc_do_conv in HD; [|reflexivity].
    destruct (@cscr_buffers _ _ _ _ _ x0 C M R D (lc_core L) cap ops OK fuel Hf CFlush _ (BActive a pend 0 []) H Logic.I)
      as (s1 & r1 & b1 & E1 & HA & HR1).
    rewrite HD in E1. injection E1 as <- <-. cbn in HA. destruct HA as (a1 & a2 & H1 & H2 & ->).
    exists a1, a2. split; [exact H1|]. split; [exact H2|]. exact HR1.
  Qed.

  Lemma withheld_mixed : forall s a log s', withheld s a [] ->
    c_mixed Q C public_cscr_as_ref public_cscr_as_mut s log s' ->
    exists out pend seen a', out ++ pend = way true log /\ interleave out (way false log) seen /\ m_forwards M a seen a' /\ withheld s' a' pend.
  Proof.
    intros s a log s' HH HM.
    induction HM as [|log s1 h s2 HM IH HT HC HG|log s1 h i HM IH HT HC HG].
    - exists [], [], [], a. split; [reflexivity|]. split; [constructor|]. split; [apply m_forwards_nil|exact HH].
    - destruct IH as (out & pend & seen & a1 & I1 & I2 & I3 & I4).
      destruct (withheld_round I4 HT HC HG) as (out' & pend' & a' & J1 & J2 & J3).
      exists (out ++ out'), pend', (seen ++ out'), a'. rewrite !way_app, !way_tagged. cbn [eqb]. rewrite app_nil_r.
      split; [now rewrite <- app_assoc, J1, app_assoc, I1|]. split; [|split; [eapply m_forwards_trans; eauto|exact J3]].
      rewrite <- (app_nil_r (way false log)). apply il_app; [exact I2|apply il_nil_r].
    - destruct IH as (out & pend & seen & a1 & I1 & I2 & I3 & I4). pose proof I4 as [_ HR].
      destruct (c_round L HT HC HG HR) as (a' & k' & w' & J1 & J2).
      exists out, pend, (seen ++ c_consumed [] h), a'. rewrite !way_app, !way_tagged. cbn [eqb]. rewrite app_nil_r.
      split; [exact I1|]. split; [|split; [eapply m_forwards_trans; eauto|eapply withheld_reach; eauto]].
      rewrite <- (app_nil_r out). apply il_app; [exact I2|apply il_nil_l].
  Qed.
End Withheld.

(** ** The checker around a consumer *)
Section CheckedConsumer.
  Context {S A T F E : Type} (checks : bool) (C : bulk_consumer S T F E) (M : machine A T F E)
    (R : S -> A -> nat -> list T -> Prop) (D : S -> A -> Prop).
  Hypothesis L : lawful_consumer C M R D.

  Lemma checkedc_mixed : forall s a k w log s', R s a k w ->
    c_mixed (public_consumer checks C) C invariant_as_ref invariant_as_mut (invariant_new s) log s' ->
    exists a', m_forwards M a (map snd log) a' /\ pubc_rel (R := R) checks s' a' 0 [].
  Proof.
    intros s a k w log s' HR HM. apply (lc_forget L) in HR. apply (publicc_rel_new (R := R) checks) in HR.
    pose proof (publicc_lawful (R := R) (D := D) checks (lc_core L)) as LP.
    induction HM as [|log s1 h s2 HM IH HT HC HG|log s1 h i HM IH HT HC HG].
    - exists a. split; [apply m_forwards_nil|exact HR].
    - destruct IH as (a1 & I1 & I2). destruct (c_round LP HT HC HG I2) as (a' & k' & w' & J1 & J2).
      exists a'. rewrite map_app, snd_tagged. split; [eapply m_forwards_trans; eauto|exact (lc_forget LP J2)].
    - destruct IH as (a1 & I1 & I2).
      assert (HI : R (invariant_as_ref s1) a1 0 [] /\ (checks = true -> inv_active s1 = true)).
      { unfold pubc_rel in I2. destruct checks; [destruct I2 as (I2 & I3 & _)|]; split; auto; discriminate. }
      destruct HI as [HI HA]. destruct (c_round L HT HC HG HI) as (a' & k' & w' & J1 & J2). apply (lc_forget L) in J2.
      exists a'. rewrite map_app, snd_tagged. split; [eapply m_forwards_trans; eauto|].
      unfold pubc_rel. destruct checks; [|exact J2]. unfold invc_rel. cbn. split; [exact J2|]. split; [auto|lia].
  Qed.
End CheckedConsumer.

(** ** Mutable views of slices *)
Section Views.
  Context {T : Type} (f : list T -> list T).
  Hypothesis Hlen : forall xs, length (f xs) = length xs.

  Lemma is_rel_split : forall n (s : into_slice T) (log : list T) k w, is_rel n s log k w -> exists rest, is_slice s = log ++ rest /\ is_offset s = length log.
  Proof.
    intros n s log k w H. destruct (is_rel_read H) as (_ & H1 & _ & rest & _ & H2). eauto.
  Qed.

  Lemma is_rel_of : forall n (log rest : list T), length (log ++ rest) = n -> is_rel n (mk_into_slice (log ++ rest) (length log)) log 0 [].
  Proof.
    intros n log rest H. split; [exact H|]. unfold iv_rel. cbn. rewrite app_length in *. splits; try lia.
    rewrite Nat.add_0_r, app_nil_r. apply firstn_app_length.
  Qed.

  Lemma views : forall n (s : into_slice T) (log : list T) k w, is_rel n s log k w ->
    exists rest, into_slice_as_ref s = log ++ rest /\
    into_slice_get_overwritten_so_far_mut f s = Ret (mk_into_slice (f log ++ rest) (length log)) /\
    is_rel n (mk_into_slice (f log ++ rest) (length log)) (f log) 0 [] /\
    into_slice_get_not_yet_overwritten_mut f s = Ret (mk_into_slice (log ++ f rest) (length log)) /\
    is_rel n (mk_into_slice (log ++ f rest) (length log)) log 0 [] /\
    into_slice_as_mut f s = mk_into_slice (f (log ++ rest)) (length log) /\
    is_rel n (mk_into_slice (f (log ++ rest)) (length log)) (firstn (length log) (f (log ++ rest))) 0 [].
  Proof.
    intros n s log k w H. destruct (is_rel_split H) as (rest & H1 & H2). exists rest.
    destruct H as [H _]. rewrite H1 in H.
    unfold into_slice_as_ref, into_slice_get_overwritten_so_far_mut, into_slice_get_not_yet_overwritten_mut, into_slice_as_mut, into_slice_get_offset.
    rewrite H1, H2. rewrite slice_to_ok, slice_from_ok by (rewrite app_length; lia). cbn [bind].
    rewrite firstn_app_length, skipn_app_length. split; [reflexivity|]. split; [reflexivity|].
    split; [rewrite <- (Hlen log); apply is_rel_of; rewrite app_length, Hlen, <- app_length; exact H|].
    split; [reflexivity|]. split; [apply is_rel_of; rewrite app_length, Hlen, <- app_length; exact H|]. split; [reflexivity|].
    set (v := f (log ++ rest)). assert (Hv : length v = n) by (unfold v; rewrite Hlen; exact H).
    rewrite app_length in H. assert (Hl : length (firstn (length log) v) = length log) by (rewrite firstn_length; lia).
    rewrite <- (firstn_skipn (length log) v) at 1. rewrite <- Hl at 3. apply is_rel_of. rewrite firstn_skipn. exact Hv.
  Qed.
End Views.

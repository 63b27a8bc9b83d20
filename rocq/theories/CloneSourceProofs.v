(** Proofs about producers that clone their items. *)
From Coq Require Import Bool List Arith Lia.
From Verif Require Import Prelude ListFacts Traits Contracts ContractFacts BasicModel BasicProofs AdaptorModel AdaptorProofs AdaptorSpec
  CloneModel CloneSpec CloneProofs ClosureModel ClosureSpec CloneScramblerSpec CloneScramblerProofs CloneSourceModel CloneSourceSpec.
Import ListNotations.
Set Implicit Arguments.

Lemma g_permitted_dec : forall T (a : gabs T) o, g_permitted a o \/ ~ g_permitted a o.
Proof.
  intros T [xs lim k|] [| |n|buf]; cbn; auto; try (right; tauto).
  - destruct (le_dec 1 k), (le_dec n k); tauto.
  - destruct buf; [right; congruence|left; discriminate].
Qed.

(** ** Who clones when producing *)
Section Sources.
  Context {W : Type}.

  Lemma calm_gives : forall S T F E (clone : T -> W -> W * option T) (P : bulk_producer S T F E) R D, lawful_producer_core P R D ->
    gives clone (calm_produce P) R D.
  Proof.
    intros S T F E clone P R D L s xs l k w HR. unfold calm_produce. destruct xs as [|x xs].
    - destruct (lp_produce_last L HR) as (s' & E1 & HD). rewrite E1. cbn. eauto.
    - destruct (lp_produce L HR) as (s' & E1 & HD). rewrite E1. cbn. eauto.
  Qed.

  Lemma from_slice_gives : forall T (clone : T -> W -> W * option T), gives clone (from_slice_produce_cloning clone) (@fs_rel T) (@fs_end T).
  Proof.
    intros T clone s xs l k w HR. unfold from_slice_produce_cloning. pose proof HR as (H1 & H2 & H3 & H4).
    assert (Hl : length xs = length (fs_slice s) - fs_offset s) by (rewrite H2; apply skipn_length).
    destruct xs as [|x xs].
    - cbn in Hl. destruct (Nat.eqb_spec (length (fs_slice s)) (fs_offset s)); [|lia]. exists s. rewrite H3. split; [reflexivity|]. unfold fs_end. lia.
    - cbn in Hl. destruct (Nat.eqb_spec (length (fs_slice s)) (fs_offset s)); [lia|].
      assert (Hn : nth_error (fs_slice s) (fs_offset s) = Some x).
      { rewrite <- (Nat.add_0_r (fs_offset s)), <- nth_error_skipn, <- H2. reflexivity. }
      unfold index. rewrite Hn. cbn [bind]. right. destruct (clone x w) as [w' [y|]] eqn:Ec.
      + left. eexists _, w', y. split; [reflexivity|]. split; [reflexivity|]. unfold fs_rel. cbn. cbn in H4. splits; auto; try lia.
        rewrite <- skipn_skipn, <- H2. reflexivity.
      + right. exists s, w'. split; [reflexivity|]. split; [reflexivity|]. unfold fs_rel. splits; auto. lia.
  Qed.

  Lemma test_producer_gives : forall T F E (clone : T -> W -> W * option T), gives clone (@test_producer_produce_cloning W T F E clone) (@tp_rel T F E) (@tp_end T F E).
  Proof.
    intros T F E clone s xs l k w HR. unfold test_producer_produce_cloning.
    destruct (tp_yield_ok HR) as (s1 & E1 & HR1 & _ & _). rewrite E1. cbn [bind]. destruct HR1 as (H1 & H2 & H3 & H4).
    rewrite (fs_not_yet H1). cbn [bind]. destruct xs as [|x xs].
    - unfold tp_take_last. rewrite H2. cbn. eexists. split; [destruct l; reflexivity|]. split; [|reflexivity]. cbn. exact (fs_rel_nil_end H1).
    - destruct (@from_slice_gives T clone _ _ _ _ w H1) as [(i & E2 & H5)|[(i & w' & y & Ec & E2 & H5)|(i & w' & Ec & E2 & H5)]]; rewrite E2; cbn [bind unwrap_left].
      + left. eexists. split; [reflexivity|]. unfold tp_rel, set_inner. cbn. auto.
      + right; left. eexists _, w', y. split; [exact Ec|]. split; [reflexivity|]. unfold tp_rel, set_inner. cbn. auto.
      + right; right. eexists _, w'. split; [exact Ec|]. split; [reflexivity|]. unfold tp_rel, set_inner. cbn. auto.
  Qed.

  Lemma invariant_gives : forall S T F E (clone : T -> W -> W * option T) produce (R : S -> list T -> res F E -> nat -> Prop) D,
    gives clone produce R D -> gives clone (invariant_produce_cloning produce) (@inv_rel S T F E R) (@inv_end S D).
  Proof.
    intros S T F E clone produce R D G [i b j] xs l k w (HR & H1 & H2). cbn in *. subst b. unfold invariant_produce_cloning, inv_check. cbn.
    pose proof (G _ _ _ _ w HR) as Gw. destruct xs as [|x xs].
    - destruct Gw as (i' & E1 & HD). rewrite E1. cbn. eexists. split; [reflexivity|]. split; auto. now destruct l.
    - destruct Gw as [(i' & E1 & HR')|[(i' & w' & y & Ec & E1 & HR')|(i' & w' & Ec & E1 & HR')]]; rewrite E1; cbn.
      + left. eexists. split; [reflexivity|]. unfold inv_rel; cbn. splits; auto. lia.
      + right; left. eexists _, w', y. split; [exact Ec|]. split; [reflexivity|]. unfold inv_rel; cbn. splits; auto. lia.
      + right; right. eexists _, w'. split; [exact Ec|]. split; [reflexivity|]. unfold inv_rel; cbn. splits; auto. lia.
  Qed.

  (** The relation of a MapFinal to its items, as long as it is active. *)
  Definition mf_rel {S T F B E} (g : F -> B) (R : S -> list T -> res F E -> nat -> Prop) (s : with_fun S (F -> B)) (xs : list T) (l : res B E) (k : nat) : Prop :=
    wf_fun s = Some g /\ exists l0, R (wf_inner s) xs l0 k /\ l = match l0 with Ok f => Ok (g f) | Err e => Err e end.
  Definition mf_end {S F B} (D : S -> Prop) (s : with_fun S (F -> B)) : Prop := D (wf_inner s).

  Lemma map_final_gives : forall S T F B E (g : F -> B) (clone : T -> W -> W * option T) produce (R : S -> list T -> res F E -> nat -> Prop) D,
    gives clone produce R D -> gives clone (map_final_produce_cloning produce) (mf_rel g R) (mf_end D).
  Proof.
    intros S T F B E g clone produce R D G [i f] xs l k w (Hf & l0 & HR & Hl). cbn in *. subst f. unfold map_final_produce_cloning. cbn.
    pose proof (G _ _ _ _ w HR) as Gw. destruct xs as [|x xs].
    - destruct Gw as (i' & E1 & HD). rewrite E1. cbn. subst l. destruct l0; cbn; eexists; (split; [reflexivity|exact HD]).
    - destruct Gw as [(i' & E1 & HR')|[(i' & w' & y & Ec & E1 & HR')|(i' & w' & Ec & E1 & HR')]]; rewrite E1; cbn.
      + left. eexists. split; [reflexivity|]. split; [reflexivity|eauto].
      + right; left. eexists _, w', y. split; [exact Ec|]. split; [reflexivity|]. split; [reflexivity|eauto].
      + right; right. eexists _, w'. split; [exact Ec|]. split; [reflexivity|]. split; [reflexivity|eauto].
  Qed.

  Lemma map_final_mf : forall S T F B E (g : F -> B) (P : bulk_producer S T F E) R D, lawful_producer_core P R D ->
    lawful_producer_core (map_final_producer P) (mf_rel g R) (mf_end D).
  Proof.
    intros S T F B E g P R D L. constructor.
    - intros s xs l k (_ & l0 & HR & _). exact (lp_wf L HR).
    - intros s xs l k (Hf & l0 & HR & Hl). split; [exact Hf|]. exists l0. split; [exact (lp_forget L HR)|exact Hl].
    - intros [i f] x xs l k (Hf & l0 & HR & Hl). cbn in *. subst f. destruct (lp_produce L HR) as (i' & E1 & HR'). unfold map_final_produce. cbn. rewrite E1. cbn.
      eexists. split; [reflexivity|]. split; [reflexivity|eauto].
    - intros [i f] l k (Hf & l0 & HR & Hl). cbn in *. subst f l. destruct (lp_produce_last L HR) as (i' & E1 & HD). unfold map_final_produce. cbn. rewrite E1.
      destruct l0; cbn; eexists; (split; [reflexivity|exact HD]).
    - intros [i f] xs l k (Hf & l0 & HR & Hl) Hne. cbn in *. subst f. destruct (lp_expose L HR Hne) as (i' & ys & rest & E1 & H1 & H2 & HR').
      unfold map_final_expose. cbn. rewrite E1. cbn. exists (mk_with_fun i' (Some g)), ys, rest. splits; auto. split; [reflexivity|eauto].
    - intros [i f] l k (Hf & l0 & HR & Hl). cbn in *. subst f l. destruct (lp_expose_last L HR) as (i' & E1 & HD). unfold map_final_expose. cbn. rewrite E1.
      destruct l0; cbn; eexists; (split; [reflexivity|exact HD]).
    - intros [i f] xs l k n (Hf & l0 & HR & Hl) Hk Hn. cbn in *. subst f. destruct (lp_consider L n HR Hk Hn) as (i' & E1 & HR'). unfold map_final_consider. cbn. rewrite E1. cbn.
      eexists. split; [reflexivity|]. split; [reflexivity|eauto].
  Qed.
End Sources.

(** ** Any calls *)
Section Calls.
  Context {W S T F E : Type} (clone : T -> W -> W * option T) (stop last : res F E)
    (produce : S -> W -> outcome (S * W * caught (res (T + F) E))) (P : bulk_producer S T F E) (G : S -> gabs T -> Prop).
  Hypothesis Hprod : forall s xs lim k w, G s (GAt xs lim k) -> exists s' w' r a',
    produce s w = Ret (s', w', r) /\ g_answer clone stop last (GAt xs lim k) w SProduce (SAItem r) a' w' /\ G s' a'.
  Hypothesis Hexp : forall s xs lim k (w : W), G s (GAt xs lim k) -> exists s' r a',
    p_expose P s = Ret (s', r) /\ g_answer clone stop last (GAt xs lim k) w SExpose (SASlice (Done r)) a' w /\ G s' a'.
  Hypothesis Hcons : forall s xs lim k n, G s (GAt xs lim k) -> 1 <= k -> n <= k -> exists s',
    p_consider P n s = Ret (s', Ok tt) /\ G s' (GAt (skipn n xs) (less lim n) (k - n)).
  Hypothesis Hwf : forall s xs lim k, G s (GAt xs lim k) -> k <= length xs.
  Hypothesis Hforget : forall s xs lim k, G s (GAt xs lim k) -> G s (GAt xs lim 0).

  Lemma g_step : forall o s a w, G s a -> g_permitted a o ->
    exists s' w' r a', g_do clone produce P o s w = Ret (s', w', r) /\ g_answer clone stop last a w o r a' w' /\ G s' a'.
  Proof.
    intros o s [xs lim k|xs] w HG Hp; [|destruct o; contradiction]. destruct o as [| |n|buf]; cbn [g_do].
    - destruct (Hprod w HG) as (s' & w' & r & a' & E1 & H1 & H2). rewrite E1. cbn [bind]. exists s', w', (SAItem r), a'. auto.
    - destruct (Hexp w HG) as (s' & r & a' & E1 & H1 & H2). rewrite E1. cbn [bind]. exists s', w, (SASlice (Done r)), a'. auto.
    - cbn in Hp. destruct (@Hcons s xs lim k n HG) as (s' & E1 & H1); [lia|lia|]. rewrite E1. cbn [bind]. eexists s', w, _, _. splits; [reflexivity| |exact H1]. cbn. auto.
    - cbn in Hp. unfold bulk_produce_cloning. destruct (Hexp w HG) as (s' & r & a' & E1 & H1 & H2). rewrite E1. cbn [bind]. cbn in H1.
      destruct H1 as [(zs & rest & Hxs & Hzs & Hfit & -> & _ & ->)|(_ & -> & Hov)].
      + set (m := Nat.min (length zs) (length buf)).
        assert (Hm : 1 <= m). { destruct zs; [congruence|]. destruct buf; [congruence|]. unfold m. cbn. lia. }
        assert (Hpre : firstn m zs = firstn m xs). { rewrite Hxs, firstn_app. replace (m - length zs) with 0 by (unfold m; lia). cbn. now rewrite app_nil_r. }
        assert (Hlen : length zs <= length xs) by (rewrite Hxs, app_length; lia).
        assert (Hf : fits m lim). { destruct lim; cbn in *; [unfold m; lia|exact Logic.I]. }
        rewrite Hpre. destruct (clone_each clone (firstn m xs) w) as [w2 [ys []]] eqn:Ec.
        * apply clone_each_true in Ec. pose proof (clones_length Ec) as Hl. rewrite firstn_length in Hl.
          destruct (@Hcons s' xs lim (length zs) m H2) as (s2 & E2 & HG2); [destruct zs; [congruence|cbn; lia]|unfold m; lia|]. rewrite E2. cbn [bind].
          eexists s2, w2, _, (GAt (skipn m xs) (less lim m) 0). splits; [reflexivity| |exact (Hforget HG2)].
          cbn. left. exists m, ys. splits; auto; try (unfold m in *; lia). unfold overlay. do 2 f_equal. unfold m in *. lia.
        * apply clone_each_false in Ec. eexists s', w2, _, (GAt xs lim 0). splits; [reflexivity| |exact (Hforget H2)].
          cbn. exists m, ys. splits; auto. unfold m. lia.
      + assert (Hover : forall rr : res (nat + F) E, (forall l : res F E, says_end l r -> says_end l rr) ->
          (w = w /\ GEnded xs = GEnded xs /\ ((lim = Some 0 /\ says_end stop rr) \/ (fits 1 lim /\ xs = [] /\ says_end last rr)))).
        { intros rr Hr. splits; auto. destruct Hov as [[Hl He]|(Hl & Hx & He)]; [left|right]; auto. }
        assert (Hcase : (exists f, r = Ok (inr f)) \/ (exists e, r = Err e)).
        { destruct Hov as [[_ He]|(_ & _ & He)]; unfold says_end in He; subst r; [destruct stop|destruct last]; eauto. }
        destruct Hcase as [[f ->]|[e ->]]; (eexists s', w, _, (GEnded xs); splits; [reflexivity| |exact H2]); cbn; right; (split; [|reflexivity]);
          apply Hover; intros [f0|e0] H; unfold says_end in *; congruence.
  Qed.

  Lemma g_all : forall calls s a w, G s a -> g_conforms clone stop last produce P calls s w a.
  Proof.
    induction calls as [|o calls IH]; intros s a w HG; [constructor|].
    destruct (g_permitted_dec a o) as [Hp|Hp]; [|now apply g_conforms_broken].
    destruct (@g_step o s a w HG Hp) as (s' & w' & r & a' & E1 & H1 & H2). eapply g_conforms_step; eauto.
  Qed.

  Lemma g_run : forall calls s a w, G s a -> exists h s' w' a', g_history clone stop last produce P s w a h s' w' a' /\ G s' a' /\
    (calls = map fst h \/ exists o calls', calls = map fst h ++ o :: calls' /\ ~ g_permitted a' o).
  Proof.
    induction calls as [|o calls IH]; intros s a w HG.
    - exists [], s, w, a. splits; auto. constructor.
    - destruct (g_permitted_dec a o) as [Hp|Hp].
      + destruct (@g_step o s a w HG Hp) as (s1 & w1 & r & a1 & E1 & H1 & H2).
        destruct (IH s1 a1 w1 H2) as (h & s' & w' & a' & Hh & HR' & Hc). exists ((o, r) :: h), s', w', a'.
        splits; auto; [econstructor; eauto|]. cbn. destruct Hc as [->|(o' & calls' & -> & Hn)]; [now left|right; eauto].
      + exists [], s, w, a. splits; auto; [constructor|]. right. exists o, calls. auto.
  Qed.
End Calls.

(** ** Without a limit, and with one *)
Section Lawful.
  Context {W S T F E : Type} (clone : T -> W -> W * option T)
    (produce : S -> W -> outcome (S * W * caught (res (T + F) E))) (P : bulk_producer S T F E)
    (R : S -> list T -> res F E -> nat -> Prop) (D : S -> Prop).
  Hypothesis L : lawful_producer_core P R D.
  Hypothesis Gv : gives clone produce R D.
  Variable l : res F E.

  Definition free (s : S) (a : gabs T) : Prop :=
    match a with GAt xs None k => R s xs l k | GAt _ (Some _) _ => False | GEnded xs => xs = [] /\ D s end.

  Lemma says_last : forall X, @says_end F E l X (report_last l).
  Proof. intros X. unfold says_end, report_last. now destruct l. Qed.

  Lemma free_prod : forall s xs lim k w, free s (GAt xs lim k) -> exists s' w' r a',
    produce s w = Ret (s', w', r) /\ g_answer clone l l (GAt xs lim k) w SProduce (SAItem r) a' w' /\ free s' a'.
  Proof.
    intros s xs [m|] k w HG; [contradiction|]. cbn in HG. pose proof (Gv w HG) as G. destruct xs as [|x xs].
    - destruct G as (s' & E1 & HD). eexists s', w, _, (GEnded []). splits; [exact E1| |cbn; auto]. cbn. right. splits; auto. right. splits; auto. apply says_last.
    - destruct G as [(s' & E1 & HR)|[(s' & w' & y & Ec & E1 & HR)|(s' & w' & Ec & E1 & HR)]].
      + eexists s', w, _, (GAt xs None (k - 1)). splits; [exact E1| |exact HR]. cbn. left. exists x, x, xs. splits; auto.
      + eexists s', w', _, (GAt xs None (k - 1)). splits; [exact E1| |exact HR]. cbn. left. exists x, y, xs. splits; auto.
      + eexists s', w', _, (GAt (x :: xs) None 0). splits; [exact E1| |exact HR]. cbn. exists x, xs. splits; auto.
  Qed.

  Lemma free_exp : forall s xs lim k (w : W), free s (GAt xs lim k) -> exists s' r a',
    p_expose P s = Ret (s', r) /\ g_answer clone l l (GAt xs lim k) w SExpose (SASlice (Done r)) a' w /\ free s' a'.
  Proof.
    intros s xs [m|] k w HG; [contradiction|]. cbn in HG. destruct xs as [|x xs].
    - destruct (lp_expose_last L HG) as (s' & E1 & HD). eexists s', _, (GEnded []). splits; [exact E1| |cbn; auto]. cbn. right. splits; auto. right. splits; auto. apply says_last.
    - destruct (lp_expose L HG) as (s' & zs & rest & E1 & H1 & H2 & HR); [discriminate|]. eexists s', _, (GAt (x :: xs) None (length zs)). splits; [exact E1| |exact HR].
      cbn. left. exists zs, rest. splits; auto.
  Qed.

  Lemma free_cons : forall s xs lim k n, free s (GAt xs lim k) -> 1 <= k -> n <= k -> exists s',
    p_consider P n s = Ret (s', Ok tt) /\ free s' (GAt (skipn n xs) (less lim n) (k - n)).
  Proof. intros s xs [m|] k n HG H1 H2; [contradiction|]. exact (lp_consider L n HG H1 H2). Qed.

  Lemma free_forget : forall s xs lim k, free s (GAt xs lim k) -> free s (GAt xs lim 0).
  Proof. intros s xs [m|] k HG; [contradiction|]. exact (lp_forget L HG). Qed.

  Lemma free_conforms : forall calls s xs k w, R s xs l k -> g_conforms clone l l produce P calls s w (GAt xs None k).
  Proof. intros calls s xs k w HR. eapply g_all with (G := free); eauto using free_prod, free_exp, free_cons, free_forget. Qed.

  Lemma free_run : forall calls s xs k w, R s xs l k -> exists h s' w' a', g_history clone l l produce P s w (GAt xs None k) h s' w' a' /\ free s' a' /\
    (calls = map fst h \/ exists o calls', calls = map fst h ++ o :: calls' /\ ~ g_permitted a' o).
  Proof. intros calls s xs k w HR. eapply g_run with (G := free); eauto using free_prod, free_exp, free_cons, free_forget. Qed.

  (** The last value of the limited producer, if it comes to that. *)
  Definition some_last : res (option F) E := match l with Ok f => Ok (Some f) | Err e => Err e end.

  Definition bound (s : limit S) (a : gabs T) : Prop :=
    match a with
    | GAt xs (Some m) k => lim_remaining s = m /\ exists ki, R (lim_inner s) xs l ki /\ k <= ki /\ k <= m
    | GAt _ None _ => False
    | GEnded xs => R (lim_inner s) xs l 0 \/ (xs = [] /\ D (lim_inner s))
    end.

  Lemma bound_prod : forall s xs lim k w, bound s (GAt xs lim k) -> exists s' w' r a',
    limit_produce_cloning produce s w = Ret (s', w', r) /\ g_answer clone (Ok None) some_last (GAt xs lim k) w SProduce (SAItem r) a' w' /\ bound s' a'.
  Proof.
    intros [i m0] xs [m|] k w HG; [|contradiction]. cbn in HG. destruct HG as (-> & ki & HR & Hk & Hm). unfold limit_produce_cloning. cbn [lim_remaining lim_inner].
    destruct m as [|m].
    - eexists _, w, _, (GEnded xs). splits; [reflexivity| |left; exact (lp_forget L HR)]. cbn. right. splits; auto. left. split; reflexivity.
    - pose proof (Gv w HR) as G. destruct xs as [|x xs].
      + destruct G as (i' & E1 & HD). rewrite E1. unfold some_last, report_last in *. destruct l as [f|e]; cbn [bind];
          (eexists _, w, _, (GEnded []); splits; [reflexivity| |right; auto]); cbn; right; splits; auto; right; (splits; auto; [lia|reflexivity]).
      + destruct G as [(i' & E1 & HR')|[(i' & w' & y & Ec & E1 & HR')|(i' & w' & Ec & E1 & HR')]]; rewrite E1; cbn [bind].
        * eexists _, w, _, (GAt xs (Some m) (k - 1)). splits; [reflexivity| |cbn; split; [reflexivity|]; exists (ki - 1); splits; auto; lia].
          cbn. left. exists x, x, xs. rewrite Nat.sub_0_r. splits; auto. lia.
        * eexists _, w', _, (GAt xs (Some m) (k - 1)). splits; [reflexivity| |cbn; split; [reflexivity|]; exists (ki - 1); splits; auto; lia].
          cbn. left. exists x, y, xs. rewrite Nat.sub_0_r. splits; auto. lia.
        * eexists _, w', _, (GAt (x :: xs) (Some m) 0). splits; [reflexivity| |cbn; split; [reflexivity|]; exists 0; splits; auto; lia].
          cbn. exists x, xs. rewrite Nat.sub_0_r. splits; auto. lia.
  Qed.

  Lemma bound_exp : forall s xs lim k (w : W), bound s (GAt xs lim k) -> exists s' r a',
    p_expose (limit_producer P) s = Ret (s', r) /\ g_answer clone (Ok None) some_last (GAt xs lim k) w SExpose (SASlice (Done r)) a' w /\ bound s' a'.
  Proof.
    intros [i m0] xs [m|] k w HG; [|contradiction]. cbn in HG. destruct HG as (-> & ki & HR & Hk & Hm).
    change (p_expose (limit_producer P)) with (limit_expose P). unfold limit_expose. cbn [lim_remaining lim_inner].
    destruct (Nat.eqb_spec m 0) as [->|Hm0].
    - eexists _, _, (GEnded xs). splits; [reflexivity| |left; exact (lp_forget L HR)]. cbn. right. splits; auto. left. split; reflexivity.
    - destruct xs as [|x xs].
      + destruct (lp_expose_last L HR) as (i' & E1 & HD). rewrite E1. unfold some_last, report_last in *. destruct l as [f|e]; cbn [bind];
          (eexists _, _, (GEnded []); splits; [reflexivity| |right; auto]); cbn; right; splits; auto; right; (splits; auto; [lia|reflexivity]).
      + destruct (lp_expose L HR) as (i' & zs & rest & E1 & H1 & H2 & HR'); [discriminate|]. rewrite E1. cbn [bind]. set (n := Nat.min m (length zs)).
        rewrite slice_to_ok by (unfold n; lia). cbn [bind].
        assert (Hz : length zs <> 0) by (destruct zs; [congruence|cbn; lia]).
        assert (Hl : length (firstn n zs) = n) by (rewrite firstn_length; unfold n; lia).
        eexists _, _, (GAt (x :: xs) (Some m) n). splits; [reflexivity| |cbn; split; [reflexivity|]; exists (length zs); splits; auto; unfold n; lia].
        cbn. left. exists (firstn n zs), (skipn n zs ++ rest). rewrite Hl. splits; auto.
        * rewrite app_assoc, firstn_skipn. exact H2.
        * intros H. apply (f_equal (@length T)) in H. rewrite Hl in H. cbn in H. unfold n in H. lia.
        * unfold n. lia.
  Qed.

  Lemma bound_cons : forall s xs lim k n, bound s (GAt xs lim k) -> 1 <= k -> n <= k -> exists s',
    p_consider (limit_producer P) n s = Ret (s', Ok tt) /\ bound s' (GAt (skipn n xs) (less lim n) (k - n)).
  Proof.
    intros [i m0] xs [m|] k n HG Hk Hn; [|contradiction]. cbn in HG. destruct HG as (-> & ki & HR & Hki & Hm).
    change (p_consider (limit_producer P)) with (limit_consider P). unfold limit_consider. cbn [lim_remaining lim_inner]. rewrite csub_ok by lia. cbn [bind].
    destruct (lp_consider L n HR) as (i' & E1 & HR'); [lia|lia|]. rewrite E1. cbn [bind]. eexists. split; [reflexivity|]. cbn. split; [reflexivity|]. exists (ki - n). splits; auto; lia.
  Qed.

  Lemma bound_forget : forall s xs lim k, bound s (GAt xs lim k) -> bound s (GAt xs lim 0).
  Proof. intros s xs [m|] k HG; [|contradiction]. destruct HG as (H1 & ki & H2 & H3 & H4). cbn. split; [exact H1|]. exists ki. splits; auto; lia. Qed.

  Lemma bound_new : forall s xs n k, R s xs l k -> bound (limit_new s n) (GAt xs (Some n) 0).
  Proof. intros s xs n k HR. cbn. split; [reflexivity|]. exists k. splits; auto; lia. Qed.

  Lemma bound_conforms : forall calls s xs n k w, R s xs l k ->
    g_conforms clone (Ok None) some_last (limit_produce_cloning produce) (limit_producer P) calls (limit_new s n) w (GAt xs (Some n) 0).
  Proof. intros calls s xs n k w HR. eapply g_all with (G := bound); eauto using bound_prod, bound_exp, bound_cons, bound_forget, bound_new. Qed.

  Lemma bound_run : forall calls s xs n k w, R s xs l k -> exists h s' w' a',
    g_history clone (Ok None) some_last (limit_produce_cloning produce) (limit_producer P) (limit_new s n) w (GAt xs (Some n) 0) h s' w' a' /\ bound s' a' /\
    (calls = map fst h \/ exists o calls', calls = map fst h ++ o :: calls' /\ ~ g_permitted a' o).
  Proof. intros calls s xs n k w HR. eapply g_run with (G := bound); eauto using bound_prod, bound_exp, bound_cons, bound_forget, bound_new. Qed.
End Lawful.

(** ** What the caller gets *)
Section Account.
  Context {W S T F E : Type} (clone : T -> W -> W * option T) (stop last : res F E)
    (produce : S -> W -> outcome (S * W * caught (res (T + F) E))) (P : bulk_producer S T F E).

  Definition g_shown (a : gabs T) : list T := match a with GAt xs _ k => firstn k xs | GEnded _ => [] end.
  Definition g_wf (a : gabs T) : Prop := match a with GAt xs lim k => k <= length xs /\ fits k lim | GEnded _ => True end.
  Definition g_rest (a : gabs T) : list T := match a with GAt xs _ _ => xs | GEnded xs => xs end.

  Lemma less_less : forall lim n m, less (less lim n) m = less lim (n + m).
  Proof. intros [k|] n m; cbn; [f_equal; lia|reflexivity]. Qed.

  Lemma fits_less : forall lim n m, fits n lim -> fits m (less lim n) -> fits (n + m) lim.
  Proof. intros [k|] n m; cbn; lia. Qed.

  Lemma g_account_step : forall xs lim k w o (r : sans T F E) a' w', g_wf (GAt xs lim k) -> g_permitted (GAt xs lim k) o -> g_answer clone stop last (GAt xs lim k) w o r a' w' ->
    exists handled out, xs = handled ++ g_rest a' /\ Forall2 (descends clone) handled out /\ g_wf a' /\
      (forall h, s_emitted (g_shown (GAt xs lim k)) ((o, r) :: h) = out ++ s_emitted (g_shown a') h) /\ fits (length handled + s_torn [(o, r)]) lim /\
      match a' with
      | GAt _ lim' _ => lim' = less lim (length handled + s_torn [(o, r)])
      | GEnded rest => handled = [] /\ s_torn [(o, r)] = 0 /\ (lim = Some 0 \/ rest = [])
      end.
  Proof.
    intros xs lim k w o r a' w' [Hk Hkl] Hp Ha. destruct o as [| |n|buf], r as [[r|]|[r|]|r|buf' [r|]]; cbn [g_answer] in Ha; try contradiction.
    - destruct Ha as [(x & y & xs' & -> & Hf & -> & Hy & ->)|(-> & -> & Ho)].
      + exists [x], [y]. splits; [reflexivity| | | |cbn; exact Hf|reflexivity].
        * constructor; [|constructor]. destruct Hy as [[-> _]|Hy]; [now left|right; eauto].
        * cbn in *. split; [lia|]. destruct lim; cbn in *; [lia|exact Logic.I].
        * intros h. cbn [s_emitted g_shown app]. f_equal. f_equal. destruct k; [reflexivity|]. cbn [firstn tl]. now rewrite Nat.sub_succ, Nat.sub_0_r.
      + exists [], []. splits; [reflexivity|constructor|exact Logic.I| |destruct lim; cbn; [lia|exact Logic.I]|reflexivity|reflexivity|tauto].
        intros h. destruct Ho as [[_ He]|(_ & _ & He)]; unfold says_end in He; subst r; [destruct stop|destruct last]; reflexivity.
    - destruct Ha as (x & xs' & -> & Hf & Hc & ->). exists [], []. splits; [reflexivity|constructor| |reflexivity|exact Hf|reflexivity].
      cbn. split; [lia|]. destruct lim; cbn; [lia|exact Logic.I].
    - destruct Ha as [(zs & rest & Hx & Hz & Hf & -> & -> & ->)|(-> & -> & Ho)].
      + exists [], []. splits; [reflexivity|constructor| | |destruct lim; cbn; [lia|exact Logic.I]|destruct lim; cbn; [f_equal; lia|reflexivity]].
        * cbn. split; [rewrite Hx, app_length; lia|exact Hf].
        * intros h. cbn [s_emitted g_shown app]. f_equal. rewrite Hx, firstn_app, Nat.sub_diag, firstn_all. cbn. now rewrite app_nil_r.
      + exists [], []. splits; [reflexivity|constructor|exact Logic.I| |destruct lim; cbn; [lia|exact Logic.I]|reflexivity|reflexivity|tauto].
        intros h. destruct Ho as [[_ He]|(_ & _ & He)]; unfold says_end in He; subst r; [destruct stop|destruct last]; reflexivity.
    - destruct Ha as (-> & -> & ->). cbn in Hp.
      assert (Hl : length (firstn n xs) = n) by (rewrite firstn_length; lia).
      exists (firstn n xs), (firstn n xs). rewrite Hl. cbn [s_torn filter snd length]. rewrite Nat.add_0_r. splits.
      + cbn. now rewrite firstn_skipn.
      + apply Forall2_self.
      + cbn. rewrite skipn_length. split; [lia|]. destruct lim; cbn in *; [lia|exact Logic.I].
      + intros h. cbn [s_emitted g_shown]. rewrite skipn_firstn_comm, firstn_firstn, Nat.min_l by lia. reflexivity.
      + destruct lim; cbn in *; [lia|exact Logic.I].
      + reflexivity.
    - destruct Ha as [(n & ys & -> & Hn & Hx & Hf & Hc & -> & ->)|((-> & -> & Ho) & ->)].
      + assert (Hl : length (firstn n xs) = n) by (rewrite firstn_length; lia).
        pose proof (clones_length Hc) as Hly. rewrite Hl in Hly.
        exists (firstn n xs), ys. rewrite Hl. cbn [s_torn filter snd length]. rewrite Nat.add_0_r. splits.
        * cbn. now rewrite firstn_skipn.
        * eapply clones_descends, Hc.
        * cbn. split; [lia|]. destruct lim; cbn in *; [lia|exact Logic.I].
        * intros h. cbn [s_emitted g_shown firstn]. f_equal. rewrite firstn_app, Hly, Nat.sub_diag. cbn. rewrite app_nil_r. apply firstn_all2. lia.
        * exact Hf.
        * reflexivity.
      + exists [], []. splits; [reflexivity|constructor|exact Logic.I| |destruct lim; cbn; [lia|exact Logic.I]|reflexivity|reflexivity|tauto].
        intros h. destruct Ho as [[_ He]|(_ & _ & He)]; unfold says_end in He; subst r; [destruct stop|destruct last]; reflexivity.
    - destruct Ha as (n & ys & Hn & Hf & Hb & -> & ->).
      exists [], []. splits; [reflexivity|constructor| |reflexivity|destruct lim; cbn; [lia|exact Logic.I]|destruct lim; cbn; [f_equal; lia|reflexivity]].
      cbn. split; [lia|]. destruct lim; cbn; [lia|exact Logic.I].
  Qed.

  Lemma g_account : forall s w a h s' w' a', g_history clone stop last produce P s w a h s' w' a' -> forall xs lim k, a = GAt xs lim k -> g_wf a ->
    exists handled, xs = handled ++ g_rest a' /\ Forall2 (descends clone) handled (s_emitted (g_shown a) h) /\ fits (length handled + s_torn h) lim /\
      match a' with
      | GAt _ lim' _ => lim' = less lim (length handled + s_torn h)
      | GEnded rest => lim = Some (length handled + s_torn h) \/ rest = []
      end.
  Proof.
    induction 1 as [s w a|s w a o s1 w1 r a1 h s2 w2 a2 Hp Hdo Ha Hh IH]; intros xs lim k -> Hwf.
    - exists []. splits; [reflexivity|constructor|destruct lim; cbn; [lia|exact Logic.I]|destruct lim; cbn; [f_equal; lia|reflexivity]].
    - destruct (@g_account_step xs lim k w o r a1 w1 Hwf Hp Ha) as (d1 & o1 & E1 & D1 & W1 & M1 & F1 & N1).
      rewrite (@s_torn_cons T F E). destruct a1 as [xs1 lim1 k1|xs1].
      + destruct (IH xs1 lim1 k1 eq_refl W1) as (d2 & E2 & D2 & F2 & N2). cbn [g_rest] in E1. subst lim1. exists (d1 ++ d2). rewrite app_length.
        replace (length d1 + length d2 + (s_torn [(o, r)] + s_torn h)) with (length d1 + s_torn [(o, r)] + (length d2 + s_torn h)) by lia. splits.
        * rewrite E1, E2. now rewrite app_assoc.
        * rewrite M1. apply Forall2_app; assumption.
        * apply fits_less; assumption.
        * destruct a2; [rewrite N2; apply less_less|]. destruct N2 as [N2|N2]; [left|now right]. destruct lim as [m|]; [|discriminate]. unfold less in N2; unfold fits in F1. injection N2 as N2. f_equal. lia.
      + destruct N1 as (-> & N1 & N3). destruct h as [|[o2 r2] h].
        * inversion Hh; subst. exists []. cbn [length]. rewrite N1. change (s_torn (T := T) (F := F) (E := E) []) with 0. splits; [reflexivity| |destruct lim; cbn; [lia|exact Logic.I]|].
          -- rewrite M1. inversion D1; subst. constructor.
          -- destruct N3 as [->|N3]; auto.
        * inversion Hh; subst. destruct o2; contradiction.
  Qed.
End Account.

(** ** Pipes *)
Section Pipe.
  Context {W T A F PE CE SP SC : Type} (clone : T -> W -> W * option T) (M : machine A T F CE)
    (produce : SP -> W -> outcome (SP * W * caught (res (T + F) PE))) (P : bulk_producer SP T F PE)
    (RP : SP -> list T -> res F PE -> nat -> Prop) (DP : SP -> Prop) (LP : lawful_producer_core P RP DP) (Gv : gives clone produce RP DP)
    (C : bulk_consumer SC T F CE) (RC : SC -> A -> nat -> list T -> Prop) (DC : SC -> A -> Prop) (LC : lawful_consumer_core C M RC DC).

  (** One call of [pipe]. *)
  Lemma pipe_once : forall xs fuel sp sc w l k a kc v n, RP sp xs l k -> RC sc a kc v -> length xs < fuel ->
    exists sp' sc' w' r, pipe_u produce (calm_consume C) (calm_close C) fuel sp sc w = Ret (sp', sc', w', r) /\
      match r with
      | Unwound => exists xs' a', RP sp' xs' l 0 /\ RC sc' a' 0 [] /\ length xs' <= length xs /\
          forall rest a2 w2 r2, piped clone M n xs' a' w' rest a2 w2 r2 -> piped clone M (S n) xs a w rest a2 w2 r2
      | Done r => exists rest a', (piped clone M (S n) xs a w rest a' w' AllTaken /\ rest = [] /\ r = pipe_end M l a' /\ DP sp' /\
            match l with Ok fin => DC sc' (fst (m_finish M fin a')) | Err _ => RC sc' a' 0 [] end) \/
          (exists e, piped clone M (S n) xs a w rest a' w' (Refused e) /\ r = Err (PipeConsumer e) /\ RP sp' rest l 0 /\ DC sc' a')
      end.
  Proof using LP Gv LC.
    intros xs. induction xs as [|x xs IH]; intros fuel sp sc w l k a kc v n HP HC Hf; (destruct fuel as [|fuel]; [cbn in Hf; lia|]); cbn [pipe_u]; pose proof (Gv w HP) as G.
    - destruct G as (sp' & E1 & HD). rewrite E1. destruct l as [fin|e]; cbn [bind report_last].
      + destruct (lc_close LC fin HC) as (sc' & E2 & HD2). unfold calm_close. rewrite E2. cbn [bind].
        destruct (m_finish M fin a) as [a' [[]|e]] eqn:Em; cbn [snd fst] in *; (eexists sp', sc', w, (Done _); split; [reflexivity|]);
          exists [], a; left; (splits; auto; [constructor|unfold pipe_end; rewrite Em; reflexivity|rewrite Em; exact HD2]).
      + eexists sp', sc, w, (Done _). split; [reflexivity|]. exists [], a. left. splits; auto; [constructor|exact (lc_forget LC HC)].
    - assert (Hgo : forall sp' w1 y, (y = x /\ w1 = w) \/ clone x w = (w1, Some y) -> produce sp w = Ret (sp', w1, Done (Ok (inl y))) -> RP sp' xs l (k - 1) ->
        exists sp' sc' w' r, (let* (sp, w, r) := produce sp w in
          match r with
          | Unwound => Ret (sp, sc, w, Unwound)
          | Done (Ok (inl item)) =>
              let* (sc, w, rc) := calm_consume C item sc w in
              match rc with
              | Unwound => Ret (sp, sc, w, Unwound)
              | Done (Ok tt) => pipe_u produce (calm_consume C) (calm_close C) fuel sp sc w
              | Done (Err consumer_error) => Ret (sp, sc, w, Done (Err (PipeConsumer consumer_error)))
              end
          | Done (Ok (inr final_value)) =>
              let* (sc, w, rc) := calm_close C final_value sc w in
              match rc with
              | Unwound => Ret (sp, sc, w, Unwound)
              | Done (Ok tt) => Ret (sp, sc, w, Done (Ok tt))
              | Done (Err consumer_error) => Ret (sp, sc, w, Done (Err (PipeConsumer consumer_error)))
              end
          | Done (Err producer_error) => Ret (sp, sc, w, Done (Err (PipeProducer producer_error)))
          end) = Ret (sp', sc', w', r) /\
          match r with
          | Unwound => exists xs' a', RP sp' xs' l 0 /\ RC sc' a' 0 [] /\ length xs' <= length (x :: xs) /\
              forall rest a2 w2 r2, piped clone M n xs' a' w' rest a2 w2 r2 -> piped clone M (S n) (x :: xs) a w rest a2 w2 r2
          | Done r => exists rest a', (piped clone M (S n) (x :: xs) a w rest a' w' AllTaken /\ rest = [] /\ r = pipe_end M l a' /\ DP sp' /\
                match l with Ok fin => DC sc' (fst (m_finish M fin a')) | Err _ => RC sc' a' 0 [] end) \/
              (exists e, piped clone M (S n) (x :: xs) a w rest a' w' (Refused e) /\ r = Err (PipeConsumer e) /\ RP sp' rest l 0 /\ DC sc' a')
          end).
      { intros sp1 w1 y Hy E1 HP1. rewrite E1. cbn [bind]. unfold calm_consume at 1. destruct (lc_consume LC y HC) as (sc1 & E2 & HC1). rewrite E2. cbn [bind].
        destruct (m_step M y a) as [a1 [[]|e]] eqn:Em; cbn [snd] in *.
        - destruct (IH fuel sp1 sc1 w1 l (k - 1) a1 0 [] n HP1 HC1 ltac:(cbn in Hf; lia)) as (sp2 & sc2 & w2 & r & E3 & H). exists sp2, sc2, w2, r. split; [exact E3|].
          destruct r as [r|].
          + destruct H as (rest & a' & [(H1 & H2)|(e & H1 & H2)]); exists rest, a'; [left; split; [|exact H2]|right; exists e; split; [|exact H2]]; eapply piped_item; eauto.
          + destruct H as (xs' & a' & H1 & H2 & H3 & H4). exists xs', a'. splits; auto; [cbn; lia|]. intros. eapply piped_item; eauto.
        - eexists sp1, sc1, w1, (Done _). split; [reflexivity|]. exists xs, a1. right. exists e. splits; auto; [eapply piped_refused; eauto|exact (lp_forget LP HP1)]. }
      destruct G as [(sp' & E1 & HP1)|[(sp' & w' & y & Ec & E1 & HP1)|(sp' & w' & Ec & E1 & HP1)]].
      + exact (Hgo sp' w x (or_introl (conj eq_refl eq_refl)) E1 HP1).
      + exact (Hgo sp' w' y (or_intror Ec) E1 HP1).
      + rewrite E1. cbn [bind]. eexists sp', sc, w', Unwound. split; [reflexivity|]. exists (x :: xs), a. splits; auto; [exact (lc_forget LC HC)|].
        intros. eapply piped_panicked; eauto.
  Qed.

  Lemma pipe_again_loses_nothing : forall attempts xs fuel sp sc w l k a kc v, RP sp xs l k -> RC sc a kc v -> length xs < fuel ->
    exists sp' sc' rest a' w' r, piped clone M attempts xs a w rest a' w' r /\
      match r with
      | AllTaken => pipe_again produce (calm_consume C) (calm_close C) attempts fuel sp sc w = Ret (sp', sc', w', Done (pipe_end M l a')) /\ DP sp' /\
          match l with Ok fin => DC sc' (fst (m_finish M fin a')) | Err _ => RC sc' a' 0 [] end
      | Refused e => pipe_again produce (calm_consume C) (calm_close C) attempts fuel sp sc w = Ret (sp', sc', w', Done (Err (PipeConsumer e))) /\ RP sp' rest l 0 /\ DC sc' a'
      | Panicked => pipe_again produce (calm_consume C) (calm_close C) attempts fuel sp sc w = Ret (sp', sc', w', Unwound) /\ RP sp' rest l 0 /\ RC sc' a' 0 []
      end.
  Proof using LP Gv LC.
    induction attempts as [|n IH]; intros xs fuel sp sc w l k a kc v HP HC Hf; cbn [pipe_again].
    - exists sp, sc, xs, a, w, Panicked. splits; [constructor|reflexivity|exact (lp_forget LP HP)|exact (lc_forget LC HC)].
    - destruct (@pipe_once xs fuel sp sc w l k a kc v n HP HC Hf) as (sp1 & sc1 & w1 & r & E1 & H). rewrite E1. cbn [bind]. destruct r as [r|].
      + destruct H as (rest & a' & [(H1 & -> & -> & H2)|(e & H1 & -> & H2)]).
        * exists sp1, sc1, [], a', w1, AllTaken. auto.
        * exists sp1, sc1, rest, a', w1, (Refused e). auto.
      + destruct H as (xs1 & a1 & H1 & H2 & H3 & H4). destruct (IH xs1 fuel sp1 sc1 w1 l 0 a1 0 [] H1 H2 ltac:(lia)) as (sp2 & sc2 & rest & a2 & w2 & r & H5 & H6).
        exists sp2, sc2, rest, a2, w2, r. split; [exact (H4 _ _ _ _ H5)|exact H6].
  Qed.
End Pipe.

(** ** With the identity for [clone] *)
Section Plain.
  Lemma test_producer_plain : forall T F E (s : test_producer_state T F E),
    test_producer_produce_cloning plain_clone s tt = let* (s', r) := test_producer_produce s in Ret (s', tt, Done r).
  Proof.
    intros T F E s. unfold test_producer_produce_cloning, test_producer_produce. destruct (tp_maybe_yield s) as [s1| |]; cbn [bind]; try reflexivity.
    destruct (from_slice_not_yet_produced (tp_inner s1)) as [[|x xs]| |]; cbn [bind]; try reflexivity.
    - destruct (tp_take_last s1) as [[s2 [f|e]]| |]; reflexivity.
    - unfold from_slice_produce_cloning, from_slice_produce. destruct (length (fs_slice (tp_inner s1)) =? fs_offset (tp_inner s1)); [reflexivity|].
      destruct (index (fs_offset (tp_inner s1)) (fs_slice (tp_inner s1))); reflexivity.
  Qed.

  Lemma adaptors_plain : forall S T F E (P : bulk_producer S T F E),
    (forall s, limit_produce_cloning (calm_produce P) s tt = let* (s', r) := limit_produce P s in Ret (s', tt, Done r)) /\
    (forall B (s : with_fun S (F -> B)), map_final_produce_cloning (calm_produce P) s tt = let* (s', r) := map_final_produce P s in Ret (s', tt, Done r)) /\
    (forall s, invariant_produce_cloning (calm_produce P) s tt = let* (s', r) := invariant_produce P s in Ret (s', tt, Done r)).
  Proof.
    intros S T F E P. unfold calm_produce. splits.
    - intros [i [|m]]; unfold limit_produce_cloning, limit_produce; cbn; [reflexivity|]. destruct (p_produce P i) as [[i' [[x|f]|e]]| |]; reflexivity.
    - intros B [i f]; unfold map_final_produce_cloning, map_final_produce; cbn. destruct (p_produce P i) as [[i' r]| |]; cbn; [|reflexivity|reflexivity].
      destruct (map_final_result _ r) as [[s' r']| |]; reflexivity.
    - intros [i b j]; unfold invariant_produce_cloning, invariant_produce, inv_check; cbn. destruct b; [|reflexivity]. destruct (p_produce P i) as [[i' r]| |]; reflexivity.
  Qed.
End Plain.

(** Proofs about producers that never end. *)
From Coq Require Import Bool List Arith Lia.
From Verif Require Import Prelude ListFacts Traits Contracts ContractFacts BasicModel BasicProofs PipeSpec AdaptorModel AdaptorSpec EndlessSpec.
Import ListNotations.
Set Implicit Arguments.

Section Stretch.
  Context {T : Type} (g : nat -> T).

  Lemma stretch_length : forall i n, length (stretch g i n) = n.
  Proof. intros. unfold stretch. now rewrite map_length, seq_length. Qed.

  Lemma stretch_app : forall n m i, stretch g i (n + m) = stretch g i n ++ stretch g (i + n) m.
  Proof. intros. unfold stretch. now rewrite seq_app, map_app. Qed.

  Lemma stretch_S : forall i n, stretch g i (S n) = g i :: stretch g (S i) n.
  Proof. reflexivity. Qed.

  Lemma stretch_firstn : forall n m i, firstn m (stretch g i n) = stretch g i (Nat.min m n).
  Proof.
    intros n m i. destruct (Nat.le_ge_cases m n).
    - replace n with (m + (n - m)) at 1 by lia. rewrite stretch_app, firstn_app, stretch_length, Nat.sub_diag, firstn_O, app_nil_r.
      rewrite firstn_le_all by (rewrite stretch_length; lia). now rewrite Nat.min_l.
    - rewrite firstn_le_all by (rewrite stretch_length; lia). now rewrite Nat.min_r.
  Qed.

  Lemma stretch_skipn : forall n m i, skipn m (stretch g i n) = stretch g (i + m) (n - m).
  Proof.
    intros n m i. destruct (Nat.le_ge_cases m n).
    - replace n with (m + (n - m)) at 1 by lia. rewrite stretch_app, skipn_app, stretch_length, Nat.sub_diag.
      rewrite skipn_all2 by (rewrite stretch_length; lia). reflexivity.
    - rewrite skipn_all2 by (rewrite stretch_length; lia). now replace (n - m) with 0 by lia.
  Qed.

  Lemma stretch_nonempty : forall i n, 1 <= n -> stretch g i n <> [].
  Proof. intros i [|n] H; [lia|]. discriminate. Qed.
End Stretch.

Section Endless.
  Context {S T F E : Type} {P : bulk_producer S T F E} {g : nat -> T} {R : S -> nat -> nat -> Prop}.

  Lemma default_endless : endless_core P g R -> p_bulk_produce P = default_bulk_produce (p_expose P) (p_consider P) -> endless_producer P g R.
  Proof.
    intros L HB. constructor; [exact L|]. intros s i k buf HR Hb. rewrite HB. unfold default_bulk_produce.
    destruct (en_expose L HR) as (s1 & n & E1 & Hn & HR1). rewrite E1. cbn [bind].
    assert (Hl : 1 <= length buf) by (destruct buf; [congruence|cbn; lia]).
    cbn zeta. rewrite stretch_length, stretch_firstn.
    destruct (en_consider L (Nat.min n (length buf)) HR1) as (s2 & E2 & HR2); [lia|lia|]. rewrite E2. cbn [bind].
    exists s2, (Nat.min n (length buf)). split.
    - replace (Nat.min (Nat.min n (length buf)) n) with (Nat.min n (length buf)) by lia. reflexivity.
    - split; [lia|]. exact (en_forget L HR2).
  Qed.

  Lemma endless_step : endless_producer P g R -> forall o s i k, R s i k -> e_permitted k o ->
    exists s' r i' k', p_do P o s = Ret (s', r) /\ e_answer g i k o r i' k' /\ R s' i' k'.
  Proof.
    intros L o s i k HR Hp. destruct o; cbn [p_do e_permitted] in *.
    - destruct (en_produce L HR) as (s' & -> & H). cbn [bind]. do 4 eexists. splits; [reflexivity|cbn; splits; reflexivity|exact H].
    - destruct (en_slurp L HR) as (s' & -> & H). cbn [bind]. do 4 eexists. splits; [reflexivity|cbn; splits; reflexivity|exact H].
    - destruct (en_expose L HR) as (s' & n & -> & Hn & H). cbn [bind]. do 4 eexists. splits; [reflexivity| |exact H]. cbn. splits; [reflexivity|exact Hn|reflexivity].
    - destruct Hp as [Hk Hn]. destruct (en_consider L n HR Hk Hn) as (s' & -> & H). cbn [bind]. do 4 eexists. splits; [reflexivity|cbn; splits; reflexivity|exact H].
    - destruct (en_bulk L buf HR Hp) as (s' & n & -> & Hn & H). cbn [bind]. do 4 eexists. splits; [reflexivity| |exact H]. cbn. exists n. splits; auto; lia.
  Qed.

  Lemma e_permitted_dec : forall k (o : pop T), {e_permitted k o} + {~ e_permitted k o}.
  Proof.
    intros k o. destruct o as [| | |n|buf]; cbn; auto.
    - destruct (le_dec 1 k), (le_dec n k); [left; auto|right; lia|right; lia|right; lia].
    - destruct buf; [right; congruence|left; discriminate].
  Qed.

  Lemma endless_conforms : endless_producer P g R -> forall ops s i k, R s i k -> e_conforms P g ops s i k.
  Proof.
    intros L. induction ops as [|o ops IH]; intros s i k HR; [constructor|].
    destruct (e_permitted_dec k o) as [Hp|Hp]; [|now apply e_conforms_broken].
    destruct (endless_step L o HR Hp) as (s' & r & i' & k' & E1 & A1 & HR'). eapply e_conforms_step; eauto.
  Qed.

  (** ** Limit *)
  Section Limit.
    Context (L : endless_core P g R) (i0 n : nat).

    Definition elim_rel (s : limit S) (xs : list T) (l : res (option F) E) (k : nat) : Prop :=
      exists ki, R (lim_inner s) (i0 + (n - lim_remaining s)) ki /\ lim_remaining s <= n /\
        xs = stretch g (i0 + (n - lim_remaining s)) (lim_remaining s) /\ l = Ok None /\ k <= ki /\ k <= lim_remaining s.

    Definition elim_end (s : limit S) : Prop := lim_remaining s = 0 /\ R (lim_inner s) (i0 + n) 0.

    Lemma elim_core : lawful_producer_core (limit_producer P) elim_rel elim_end.
    Proof.
      constructor.
      - intros s xs l k (ki & HR & H1 & -> & -> & H3 & H4). now rewrite stretch_length.
      - intros s xs l k (ki & HR & H1 & H2 & H5 & H3 & H4). exists ki. splits; auto; lia.
      - intros [s r] x xs l k (ki & HR & H1 & Hx & -> & H3 & H4). cbn [lim_remaining lim_inner] in *. destruct r as [|r]; [discriminate|].
        rewrite stretch_S in Hx. injection Hx as -> ->.
        destruct (en_produce L HR) as (s' & E1 & HR'). unfold limit_produce. cbn. rewrite E1. cbn. eexists. split; [reflexivity|].
        exists (ki - 1). cbn. replace (i0 + (n - r)) with (Datatypes.S (i0 + (n - Datatypes.S r))) by lia. splits; auto; lia.
      - intros [s r] l k (ki & HR & H1 & Hx & -> & H3 & H4). cbn [lim_remaining lim_inner] in *. destruct r as [|r]; [|discriminate].
        unfold limit_produce. cbn. eexists. split; [reflexivity|]. split; [reflexivity|]. cbn. rewrite Nat.sub_0_r in HR. exact (en_forget L HR).
      - intros [s r] xs l k (ki & HR & H1 & Hx & -> & H3 & H4) Hne. cbn [lim_remaining lim_inner] in *. destruct r as [|r]; [now destruct Hne|].
        destruct (en_expose L HR) as (s' & m & E1 & Hm & HR'). change (p_expose (limit_producer P)) with (limit_expose P). unfold limit_expose. cbn [lim_remaining lim_inner Nat.eqb]. rewrite E1. cbn [bind].
        rewrite stretch_length, slice_to_ok by (rewrite stretch_length; lia). cbn [bind]. rewrite stretch_firstn.
        replace (Nat.min (Nat.min (Datatypes.S r) m) m) with (Nat.min (Datatypes.S r) m) by lia.
        eexists _, _, (stretch g (i0 + (n - Datatypes.S r) + Nat.min (Datatypes.S r) m) (Datatypes.S r - Nat.min (Datatypes.S r) m)).
        split; [reflexivity|]. split; [apply stretch_nonempty; lia|]. split.
        + rewrite Hx, <- stretch_app. f_equal. lia.
        + exists m. cbn [lim_remaining lim_inner]. rewrite stretch_length. splits; auto; lia.
      - intros [s r] l k (ki & HR & H1 & Hx & -> & H3 & H4). cbn [lim_remaining lim_inner] in *. destruct r as [|r]; [|discriminate].
        unfold limit_expose. cbn. eexists. split; [reflexivity|]. split; [reflexivity|]. cbn. rewrite Nat.sub_0_r in HR. exact (en_forget L HR).
      - intros [s r] xs l k m (ki & HR & H1 & Hx & -> & H3 & H4) Hk Hm. cbn [lim_remaining lim_inner] in *. change (p_consider (limit_producer P)) with (limit_consider P). unfold limit_consider. cbn [lim_remaining lim_inner]. rewrite csub_ok by lia. cbn [bind].
        destruct (en_consider L m HR) as (s' & E1 & HR'); [lia|lia|]. rewrite E1. cbn [bind]. eexists. split; [reflexivity|].
        exists (ki - m). cbn [lim_remaining lim_inner]. replace (i0 + (n - (r - m))) with (i0 + (n - r) + m) by lia. splits; auto; try lia.
        rewrite Hx. apply stretch_skipn.
    Qed.

    Lemma elim_lawful : lawful_producer (limit_producer P) elim_rel elim_end.
    Proof. apply default_lawful_producer; [exact elim_core|reflexivity]. Qed.

    Lemma elim_slurp : lawful_slurp (limit_producer P) elim_rel elim_end.
    Proof.
      intros [s r] xs l k (ki & HR & H1 & Hx & -> & H3 & H4). cbn [lim_remaining lim_inner] in *. change (p_slurp (limit_producer P)) with (limit_slurp P). unfold limit_slurp. cbn [lim_inner].
      destruct (en_slurp L HR) as (s' & E1 & HR'). rewrite E1. cbn. left. eexists. split; [reflexivity|]. exists ki. cbn. auto 8.
    Qed.

    Lemma elim_new : forall s k, R s i0 k -> elim_rel (limit_new s n) (stretch g i0 n) (Ok None) 0.
    Proof. intros s k HR. exists k. cbn. rewrite Nat.sub_diag, Nat.add_0_r. splits; auto; lia. Qed.

    Lemma elim_conforms : forall s k ops, R s i0 k -> p_conforms (limit_producer P) ops (limit_new s n) (PActive (stretch g i0 n) (Ok None) 0).
    Proof.
      intros s k ops HR. apply (lawful_p_conforms ops (s := limit_new s n) (a := PActive (stretch g i0 n) (Ok None) 0) elim_lawful).
      - left. exact elim_slurp.
      - cbn. eapply elim_new. exact HR.
    Qed.

    Lemma elim_rest : forall s k h s' a', R s i0 k -> p_history (limit_producer P) (limit_new s n) (PActive (stretch g i0 n) (Ok None) 0) h s' a' ->
      exists j k', j <= n /\ p_emitted [] h = stretch g i0 j /\ R (lim_inner s') (i0 + j) k' /\
        match a' with
        | PActive ys _ _ => lim_remaining s' = n - j /\ p_last h = None
        | PEnded => j = n /\ p_last h = Some (Ok None)
        end.
    Proof.
      intros s k h s' a' HR HH.
      assert (HE := p_history_emits (Nat.le_0_l _) HH). cbn [firstn] in HE.
      assert (HF : p_rel elim_rel elim_end s' a').
      { apply (lawful_p_history (P := limit_producer P) (R := elim_rel) (D := elim_end) elim_lawful (or_introl elim_slurp)) in HH; [exact HH|]. cbn. eapply elim_new. exact HR. }
      destruct a' as [ys l k'|].
      - destruct HF as (ki & HR' & H1 & Hx & -> & H3 & H4). destruct HE as (He & _ & HL & _).
        exists (n - lim_remaining s'), ki. split; [lia|]. split.
        + rewrite Hx in He. replace n with ((n - lim_remaining s') + lim_remaining s') in He at 2 by lia. rewrite stretch_app in He.
          now apply app_inv_tail in He.
        + splits; auto. lia.
      - destruct HF as [H1 HR']. destruct HE as [He HL]. exists n, 0. splits; auto.
    Qed.
  End Limit.
End Endless.

(** ** Adaptors *)
Section Adaptors.
  Context {S T F E : Type} {P : bulk_producer S T F E} {g : nat -> T} {R : S -> nat -> nat -> Prop} (L : endless_core P g R).

  Lemma map_final_endless : forall B, endless_producer (map_final_producer (B := B) P) g (fun s => R (wf_inner s)).
  Proof.
    intros B. apply default_endless; [|reflexivity]. constructor.
    - intros [s f] i k HR. exact (en_forget L HR).
    - intros [s f] i k HR. destruct (en_produce L HR) as (s' & E1 & HR'). cbn. unfold map_final_produce. cbn in *. rewrite E1. cbn. eexists. split; [reflexivity|exact HR'].
    - intros [s f] i k HR. destruct (en_slurp L HR) as (s' & E1 & HR'). cbn. unfold map_final_slurp. cbn in *. rewrite E1. cbn. eexists. split; [reflexivity|exact HR'].
    - intros [s f] i k HR. destruct (en_expose L HR) as (s' & n & E1 & Hn & HR'). change (p_expose (map_final_producer P)) with (map_final_expose (B := B) P).
      unfold map_final_expose. cbn [wf_inner] in *. rewrite E1. cbn [bind]. eexists _, n. split; [reflexivity|]. split; [exact Hn|exact HR'].
    - intros [s f] i k n HR Hk Hn. destruct (en_consider L n HR Hk Hn) as (s' & E1 & HR'). cbn. unfold map_final_consider. cbn in *. rewrite E1. cbn. eexists. split; [reflexivity|exact HR'].
  Qed.

  Definition einv_rel (s : invariant S) (i k : nat) : Prop := exists ki, R (inv_inner s) i ki /\ inv_active s = true /\ k <= ki /\ k <= inv_exposed s.

  Lemma invariant_endless : endless_producer (invariant_producer P) g einv_rel.
  Proof.
    apply default_endless; [|reflexivity]. constructor.
    - intros s i k (ki & HR & Ha & H1 & H2). exists ki. splits; auto; lia.
    - intros [s a x] i k (ki & HR & Ha & H1 & H2). cbn in *. subst a. destruct (en_produce L HR) as (s' & E1 & HR'). unfold invariant_produce, inv_check. cbn. rewrite E1. cbn.
      eexists. split; [reflexivity|]. exists (ki - 1). cbn. splits; auto; lia.
    - intros [s a x] i k (ki & HR & Ha & H1 & H2). cbn in *. subst a. destruct (en_slurp L HR) as (s' & E1 & HR'). unfold invariant_slurp, inv_check. cbn. rewrite E1. cbn.
      eexists. split; [reflexivity|]. exists ki. cbn. splits; auto; lia.
    - intros [s a x] i k (ki & HR & Ha & H1 & H2). cbn [inv_inner inv_active inv_exposed] in *. subst a. destruct (en_expose L HR) as (s' & n & E1 & Hn & HR').
      change (p_expose (invariant_producer P)) with (invariant_expose P). unfold invariant_expose, inv_check. cbn [inv_inner inv_active inv_exposed]. rewrite E1. cbn [bind].
      eexists _, n. split; [reflexivity|]. split; [exact Hn|]. exists n. cbn [inv_inner inv_active inv_exposed]. rewrite stretch_length. splits; auto.
    - intros [s a x] i k n (ki & HR & Ha & H1 & H2) Hk Hn. cbn in *. subst a. destruct (en_consider L n HR) as (s' & E1 & HR'); [lia|lia|].
      unfold invariant_consider, inv_check. cbn. destruct (Nat.ltb_spec x n); [lia|]. rewrite csub_ok by lia. cbn. rewrite E1. cbn.
      eexists. split; [reflexivity|]. exists (ki - n). cbn. splits; auto; lia.
  Qed.

  Lemma noop_endless : endless_producer (invariant_noop_producer P) g R.
  Proof.
    apply default_endless; [|reflexivity]. constructor.
    - exact (@en_forget _ _ _ _ _ _ _ L).
    - exact (@en_produce _ _ _ _ _ _ _ L).
    - exact (@en_slurp _ _ _ _ _ _ _ L).
    - exact (@en_expose _ _ _ _ _ _ _ L).
    - exact (@en_consider _ _ _ _ _ _ _ L).
  Qed.

  (** MapItem is a buffered producer, not a bulk producer. *)
  Lemma map_item_endless : forall U W (f : W -> T -> W * U) w s j k, R (mi_inner s) j k -> mi_closure s = closure_at f w g j ->
    (exists s', p_produce (map_item_producer P f) s = Ret (s', Ok (inl (mapped_at f w g j))) /\ R (mi_inner s') (Datatypes.S j) (k - 1) /\ mi_closure s' = closure_at f w g (Datatypes.S j)) /\
    (exists s', p_slurp (map_item_producer P f) s = Ret (s', Ok tt) /\ R (mi_inner s') j k /\ mi_closure s' = closure_at f w g j).
  Proof.
    intros U W f w [s c] j k HR Hc. cbn in HR, Hc. split.
    - destruct (en_produce L HR) as (s' & E1 & HR'). cbn. unfold map_item_produce. cbn. rewrite E1. cbn. unfold mapped_at. rewrite <- Hc. destruct (f c (g j)) as [c' u] eqn:Ef.
      cbn. eexists. split; [reflexivity|]. cbn. auto.
    - destruct (en_slurp L HR) as (s' & E1 & HR'). cbn. unfold map_item_slurp. cbn. rewrite E1. cbn. eexists. split; [reflexivity|]. auto.
  Qed.
End Adaptors.

(** ** Slices *)
Section Slices.
  Context {S T F E : Type} {P : bulk_producer S T F E} {g : nat -> T} {R : S -> nat -> nat -> Prop} (L : endless_producer P g R).

  Lemma produce_item_endless : forall s i k, R s i k -> exists s', produce_item P s = Ret (s', Ok (g i)) /\ R s' (Datatypes.S i) 0.
  Proof. intros s i k HR. destruct (en_produce L HR) as (s' & E1 & HR'). unfold produce_item. rewrite E1. cbn. eexists. split; [reflexivity|exact (en_forget L HR')]. Qed.

  Lemma overwrite_endless : forall buf s i k, R s i k ->
    exists s', overwrite_full_slice P buf s = Ret (s', (stretch g i (length buf), Ok tt)) /\ R s' (i + length buf) 0.
  Proof.
    assert (H : forall todo pre post s i k, R s i k -> length post = todo ->
      exists s', overwrite_full_slice_from P todo (length pre) (pre ++ post) s = Ret (s', (pre ++ stretch g i todo, Ok tt)) /\ R s' (i + todo) 0).
    { induction todo as [|todo IH]; intros pre post s i k HR Hl; cbn [overwrite_full_slice_from].
      - destruct post; [|discriminate]. exists s. rewrite Nat.add_0_r. split; [reflexivity|exact (en_forget L HR)].
      - destruct post as [|y post]; [discriminate|]. destruct (en_produce L HR) as (s' & E1 & HR'). rewrite E1. cbn [bind].
        rewrite index_set_ok by (rewrite app_length; cbn; lia). cbn [bind].
        destruct (IH (pre ++ [g i]) post s' (Datatypes.S i) (k - 1) HR') as (s2 & E2 & HR2); [cbn in Hl; lia|].
        exists s2. rewrite app_length in E2. cbn [length] in E2. rewrite <- app_assoc in E2. rewrite stretch_S.
        replace (i + Datatypes.S todo) with (Datatypes.S i + todo) by lia. split; [|exact HR2].
        rewrite <- app_assoc in E2. cbn [app] in E2. rewrite <- E2. f_equal. unfold blit. rewrite firstn_app, Nat.sub_diag, firstn_all, firstn_O, app_nil_r.
        rewrite skipn_app, skipn_all2 by (cbn; lia). cbn [length app]. replace (length pre + 1 - length pre) with 1 by lia. reflexivity. }
    intros buf s i k HR. exact (H (length buf) [] buf s i k HR eq_refl).
  Qed.

  Lemma bulk_overwrite_endless : forall fuel buf s i k, R s i k -> length buf < fuel ->
    exists s', bulk_overwrite_full_slice fuel P buf s = Ret (s', (stretch g i (length buf), Ok tt)) /\ R s' (i + length buf) 0.
  Proof.
    assert (H : forall fuel pre post s i k, R s i k -> length post < fuel ->
      exists s', bulk_overwrite_full_slice_loop fuel P (length pre) (pre ++ post) s = Ret (s', (pre ++ stretch g i (length post), Ok tt)) /\ R s' (i + length post) 0).
    { induction fuel as [|fuel IH]; intros pre post s i k HR Hl; [lia|]. cbn [bulk_overwrite_full_slice_loop].
      rewrite app_length. destruct (Nat.ltb_spec (length pre) (length pre + length post)) as [Hlt|Hge].
      - rewrite slice_from_ok by (rewrite app_length; lia). cbn [bind]. rewrite skipn_app, skipn_all2, Nat.sub_diag by lia. cbn [skipn app].
        destruct (en_bulk L post HR) as (s1 & n & E1 & Hn & HR1); [destruct post; [cbn in Hlt; lia|discriminate]|]. rewrite E1. cbn [bind].
        rewrite firstn_app, Nat.sub_diag, firstn_all, firstn_O, app_nil_r.
        destruct (IH (pre ++ stretch g i n) (skipn n post) s1 (i + n) 0 HR1) as (s2 & E2 & HR2); [rewrite skipn_length; lia|].
        rewrite app_length, stretch_length, <- !app_assoc in E2. exists s2. rewrite E2. rewrite skipn_length in HR2 |- *. split.
        + do 3 f_equal. rewrite <- stretch_app. do 2 f_equal. lia.
        + replace (i + length post) with (i + n + (length post - n)) by lia. exact HR2.
      - assert (length post = 0) by lia. destruct post; [|discriminate]. exists s. rewrite app_nil_r. cbn. rewrite Nat.add_0_r. split; [|exact (en_forget L HR)].
        unfold stretch. cbn. now rewrite app_nil_r. }
    intros fuel buf s i k HR Hl. exact (H fuel [] buf s i k HR Hl).
  Qed.
End Slices.

(** ** Pipes *)
Section Pipes.
  Context {SP SC A T F PE CE : Type} {P : bulk_producer SP T F PE} {C : bulk_consumer SC T F CE} {M : machine A T F CE}
    {g : nat -> T} {R : SP -> nat -> nat -> Prop} {RC : SC -> A -> nat -> list T -> Prop} {DC : SC -> A -> Prop}
    (L : endless_producer P g R) (LC : lawful_consumer C M RC DC).

  Lemma takes_more : forall a i n m a1, takes M g a i n a1 -> forall a2, takes M g a i (n + m) a2 -> takes M g a1 (i + n) m a2.
  Proof.
    unfold takes. intros a i n m a1 H1 a2 H2. rewrite stretch_app, m_feed_app, H1 in H2.
    destruct (m_feed M (stretch g (i + n) m) a1) as [[a3 p] e]. injection H2 as -> Hp ->. f_equal. f_equal. lia.
  Qed.

  Lemma refuses_more : forall a i n m a1 e a2 p, takes M g a i n a1 -> m_feed M (stretch g i (n + m)) a = (a2, p, Some e) ->
    n <= p /\ m_feed M (stretch g (i + n) m) a1 = (a2, p - n, Some e).
  Proof.
    unfold takes. intros a i n m a1 e a2 p H1 H2. rewrite stretch_app, m_feed_app, H1 in H2.
    destruct (m_feed M (stretch g (i + n) m) a1) as [[a3 q] e3]. injection H2 as -> <- ->. split; [lia|]. do 2 f_equal. lia.
  Qed.

  Lemma pipe_for_ever : forall fuel sp sc a i k kc w, R sp i k -> RC sc a kc w -> (forall n, exists a', takes M g a i n a') -> pipe fuel P C sp sc = NoFuel.
  Proof.
    induction fuel as [|fuel IH]; intros sp sc a i k kc w HP HC HT; cbn [pipe]; [reflexivity|].
    destruct (en_produce L HP) as (sp1 & E1 & HP1). rewrite E1. cbn [bind].
    destruct (lc_consume LC (g i) HC) as (sc1 & E2 & HC1). rewrite E2. cbn [bind].
    destruct (HT 1) as [a1 H1]. unfold takes in H1. cbn in H1. destruct (m_step M (g i) a) as [a2 [[]|e]] eqn:Es; [|discriminate]. cbn [snd].
    eapply IH; [exact HP1|exact HC1|]. intros n. destruct (HT (Datatypes.S n)) as [a3 H3]. exists a3. unfold takes in *. rewrite stretch_S in H3. cbn [m_feed] in H3. rewrite Es in H3.
    destruct (m_feed M (stretch g (Datatypes.S i) n) a2) as [[a4 q] e4]. now injection H3 as -> -> ->.
  Qed.

  Lemma pipe_refused : forall m fuel sp sc a i k kc w a' n e, R sp i k -> RC sc a kc w -> m_feed M (stretch g i m) a = (a', n, Some e) -> n < fuel ->
    exists sp' sc', pipe fuel P C sp sc = Ret (sp', sc', Err (PipeConsumer e)) /\ R sp' (i + Datatypes.S n) 0 /\ DC sc' a'.
  Proof.
    induction m as [|m IH]; intros fuel sp sc a i k kc w a' n e HP HC HM Hf; [discriminate|]. destruct fuel as [|fuel]; [lia|]. cbn [pipe].
    destruct (en_produce L HP) as (sp1 & E1 & HP1). rewrite E1. cbn [bind].
    destruct (lc_consume LC (g i) HC) as (sc1 & E2 & HC1). rewrite E2. cbn [bind].
    rewrite stretch_S in HM. cbn [m_feed] in HM. destruct (m_step M (g i) a) as [a2 [[]|e2]] eqn:Es; cbn [snd].
    - destruct (m_feed M (stretch g (Datatypes.S i) m) a2) as [[a4 q] e4] eqn:E4. injection HM as -> <- ->.
      destruct (IH fuel sp1 sc1 a2 _ _ _ _ _ _ _ HP1 HC1 E4) as (sp' & sc' & E5 & H5 & H6); [lia|].
      exists sp', sc'. splits; auto. now replace (i + Datatypes.S (Datatypes.S q)) with (Datatypes.S i + Datatypes.S q) by lia.
    - injection HM as -> <- ->. exists sp1, sc1. splits; auto. replace (i + 1) with (Datatypes.S i) by lia. exact (en_forget L HP1).
  Qed.

  Lemma pipe_at_most_endless : forall count sp sc a i k kc w, R sp i k -> RC sc a kc w ->
    match m_feed M (stretch g i count) a with
    | (a', _, None) => exists sp' sc', pipe_at_most P C count sp sc = Ret (sp', sc', Ok count) /\ R sp' (i + count) 0 /\ RC sc' a' 0 []
    | (a', n, Some e) => exists sp' sc', pipe_at_most P C count sp sc = Ret (sp', sc', Err (PipeConsumer e)) /\ R sp' (i + Datatypes.S n) 0 /\ DC sc' a'
    end.
  Proof.
    assert (H : forall todo piped sp sc a i k kc w, R sp i k -> RC sc a kc w ->
      match m_feed M (stretch g i todo) a with
      | (a', _, None) => exists sp' sc', pipe_at_most_loop todo P C piped sp sc = Ret (sp', sc', Ok (piped + todo)) /\ R sp' (i + todo) 0 /\ RC sc' a' 0 []
      | (a', n, Some e) => exists sp' sc', pipe_at_most_loop todo P C piped sp sc = Ret (sp', sc', Err (PipeConsumer e)) /\ R sp' (i + Datatypes.S n) 0 /\ DC sc' a'
      end).
    { induction todo as [|todo IH]; intros piped sp sc a i k kc w HP HC; cbn [pipe_at_most_loop].
      - cbn. exists sp, sc. rewrite !Nat.add_0_r. splits; [reflexivity|exact (en_forget L HP)|exact (lc_forget LC HC)].
      - destruct (en_produce L HP) as (sp1 & E1 & HP1). rewrite E1. cbn [bind].
        destruct (lc_consume LC (g i) HC) as (sc1 & E2 & HC1). rewrite E2. cbn [bind].
        rewrite stretch_S. cbn [m_feed]. destruct (m_step M (g i) a) as [a2 [[]|e2]] eqn:Es; cbn [snd].
        + specialize (IH (piped + 1) sp1 sc1 a2 _ _ _ _ HP1 HC1). destruct (m_feed M (stretch g (Datatypes.S i) todo) a2) as [[a4 q] [e4|]].
          * destruct IH as (sp' & sc' & E5 & H5 & H6). exists sp', sc'. splits; auto. now replace (i + Datatypes.S (Datatypes.S q)) with (Datatypes.S i + Datatypes.S q) by lia.
          * destruct IH as (sp' & sc' & E5 & H5 & H6). exists sp', sc'. replace (piped + Datatypes.S todo) with (piped + 1 + todo) by lia.
            replace (i + Datatypes.S todo) with (Datatypes.S i + todo) by lia. auto.
        + exists sp1, sc1. splits; auto. replace (i + 1) with (Datatypes.S i) by lia. exact (en_forget L HP1). }
    intros count. exact (H count 0).
  Qed.

  (** One round of the bulk loops: at most [limit] items are offered. *)
  Lemma endless_round : forall sp sc a i k kc w limit, R sp i k -> RC sc a kc w -> 1 <= limit ->
    exists sp1 len, p_expose P sp = Ret (sp1, Ok (inl (stretch g i len))) /\ 1 <= len /\ R sp1 i len /\
      ((exists sc1 a1 n sp2, c_bulk_consume C (stretch g i (Nat.min limit len)) sc = Ret (sc1, Ok n) /\ 1 <= n <= limit /\ n <= len /\
          takes M g a i n a1 /\ RC sc1 a1 0 [] /\ p_consider P n sp1 = Ret (sp2, Ok tt) /\ R sp2 (i + n) (len - n)) \/
       (exists sc1 a1 n e, c_bulk_consume C (stretch g i (Nat.min limit len)) sc = Ret (sc1, Err e) /\
          m_feed M (stretch g i (Nat.min limit len)) a = (a1, n, Some e) /\ DC sc1 a1)).
  Proof.
    intros sp sc a i k kc w limit HP HC Hl. destruct (en_expose L HP) as (sp1 & len & E1 & Hlen & HP1). exists sp1, len. splits; auto.
    destruct (lc_bulk LC (stretch g i (Nat.min limit len)) HC) as [(sc1 & n & a1 & E2 & Hn & HF & HC1)|(sc1 & n & e & a1 & E2 & HF & HD)].
    - apply stretch_nonempty. lia.
    - left. rewrite stretch_length in Hn. destruct (en_consider L n HP1 Hlen) as (sp2 & E3 & HP2); [lia|].
      exists sc1, a1, n, sp2. splits; auto; try lia. unfold takes. rewrite stretch_firstn in HF. now replace (Nat.min n (Nat.min limit len)) with n in HF by lia.
    - right. exists sc1, a1, n, e. splits; auto.
  Qed.

  Lemma bulk_pipe_for_ever : forall fuel sp sc a i k kc w, R sp i k -> RC sc a kc w -> (forall n, exists a', takes M g a i n a') -> bulk_pipe fuel P C sp sc = NoFuel.
  Proof.
    induction fuel as [|fuel IH]; intros sp sc a i k kc w HP HC HT; cbn [bulk_pipe]; [reflexivity|].
    destruct (en_expose L HP) as (sp1 & len & E1 & Hlen & HP1). rewrite E1. cbn [bind].
    destruct (lc_bulk LC (stretch g i len) HC) as [(sc1 & n & a1 & E2 & Hn & HF & HC1)|(sc1 & n & e & a1 & E2 & HF & HD)].
    - now apply stretch_nonempty.
    - rewrite stretch_length in Hn. rewrite stretch_firstn in HF. replace (Nat.min n len) with n in HF by lia. rewrite E2. cbn [bind].
      destruct (en_consider L n HP1 Hlen) as (sp2 & E3 & HP2); [lia|]. rewrite E3. cbn [bind]. eapply IH; [exact HP2|exact HC1|].
      intros m. destruct (HT (n + m)) as [a3 H3]. exists a3. exact (@takes_more a i n m a1 HF a3 H3).
    - destruct (HT len) as [a3 H3]. unfold takes in H3. congruence.
  Qed.

  Lemma bulk_pipe_refused : forall fuel m sp sc a i k kc w a' n e, R sp i k -> RC sc a kc w -> m_feed M (stretch g i m) a = (a', n, Some e) -> n < fuel ->
    exists sp' sc' j, bulk_pipe fuel P C sp sc = Ret (sp', sc', Err (PipeConsumer e)) /\ j <= n /\ R sp' (i + j) 0 /\ DC sc' a'.
  Proof.
    induction fuel as [|fuel IH]; intros m sp sc a i k kc w a' n e HP HC HM Hf; [lia|]. cbn [bulk_pipe].
    destruct (en_expose L HP) as (sp1 & len & E1 & Hlen & HP1). rewrite E1. cbn [bind].
    destruct (lc_bulk LC (stretch g i len) HC) as [(sc1 & p & a1 & E2 & Hp & HF & HC1)|(sc1 & p & e1 & a1 & E2 & HF & HD)].
    - now apply stretch_nonempty.
    - rewrite stretch_length in Hp. rewrite stretch_firstn in HF. replace (Nat.min p len) with p in HF by lia. rewrite E2. cbn [bind].
      destruct (en_consider L p HP1 Hlen) as (sp2 & E3 & HP2); [lia|]. rewrite E3. cbn [bind].
      assert (HM2 : m_feed M (stretch g i (p + m)) a = (a', n, Some e)).
      { apply (m_feed_prefix_err m). rewrite stretch_firstn. now replace (Nat.min m (p + m)) with m by lia. }
      destruct (@refuses_more a i p m a1 e a' n HF HM2) as [Hle HM3].
      destruct (IH m sp2 sc1 a1 _ _ _ _ _ _ _ HP2 HC1 HM3) as (sp' & sc' & j & E5 & Hj & H5 & H6); [lia|].
      exists sp', sc', (p + j). rewrite Nat.add_assoc. splits; auto. lia.
    - rewrite E2. cbn [bind]. exists sp1, sc1, 0. rewrite Nat.add_0_r.
      assert (H1 : m_feed M (stretch g i (Nat.max len m)) a = (a', n, Some e)).
      { apply (m_feed_prefix_err m). rewrite stretch_firstn. now replace (Nat.min m (Nat.max len m)) with m by lia. }
      assert (H2 : m_feed M (stretch g i (Nat.max len m)) a = (a1, p, Some e1)).
      { apply (m_feed_prefix_err len). rewrite stretch_firstn. now replace (Nat.min len (Nat.max len m)) with len by lia. }
      rewrite H1 in H2. injection H2 as -> -> ->. splits; [reflexivity|lia|exact (en_forget L HP1)|exact HD].
  Qed.

  Lemma bulk_pipe_at_most_endless : forall fuel count sp sc a i k kc w, R sp i k -> RC sc a kc w -> count < fuel ->
    match m_feed M (stretch g i count) a with
    | (a', _, None) => exists sp' sc', bulk_pipe_at_most fuel P C count sp sc = Ret (sp', sc', Ok count) /\ R sp' (i + count) 0 /\ RC sc' a' 0 []
    | (a', n, Some e) => exists sp' sc' j, bulk_pipe_at_most fuel P C count sp sc = Ret (sp', sc', Err (PipeConsumer e)) /\ j <= n /\ R sp' (i + j) 0 /\ DC sc' a'
    end.
  Proof.
    assert (H : forall fuel todo piped sp sc a i k kc w, R sp i k -> RC sc a kc w -> todo < fuel ->
      match m_feed M (stretch g i todo) a with
      | (a', _, None) => exists sp' sc', bulk_pipe_at_most_loop fuel P C (piped + todo) piped sp sc = Ret (sp', sc', Ok (piped + todo)) /\ R sp' (i + todo) 0 /\ RC sc' a' 0 []
      | (a', n, Some e) => exists sp' sc' j, bulk_pipe_at_most_loop fuel P C (piped + todo) piped sp sc = Ret (sp', sc', Err (PipeConsumer e)) /\ j <= n /\ R sp' (i + j) 0 /\ DC sc' a'
      end).
    { induction fuel as [|fuel IH]; intros todo piped sp sc a i k kc w HP HC Hf; [lia|]. cbn [bulk_pipe_at_most_loop].
      destruct todo as [|todo].
      - rewrite Nat.add_0_r. destruct (Nat.ltb_spec piped piped); [lia|]. cbn. exists sp, sc. rewrite Nat.add_0_r.
        splits; [reflexivity|exact (en_forget L HP)|exact (lc_forget LC HC)].
      - remember (Datatypes.S todo) as t eqn:Et. destruct (Nat.ltb_spec piped (piped + t)); [|lia].
        destruct (endless_round (limit := t) HP HC) as (sp1 & len & E1 & Hlen & HP1 & HH); [lia|]. rewrite E1. cbn [bind].
        rewrite csub_ok by lia. cbn [bind]. replace (piped + t - piped) with t by lia. rewrite stretch_length. rewrite slice_to_ok by (rewrite stretch_length; lia). cbn [bind].
        rewrite stretch_firstn. replace (Nat.min (Nat.min t len) len) with (Nat.min t len) by lia.
        destruct HH as [(sc1 & a1 & n & sp2 & E2 & Hn1 & Hn2 & HT & HC1 & E3 & HP2)|(sc1 & a1 & n & e & E2 & HM & HD)]; rewrite E2; cbn [bind].
        + rewrite E3. cbn [bind]. specialize (IH (t - n) (piped + n) sp2 sc1 a1 _ _ _ _ HP2 HC1 ltac:(lia)).
          replace (piped + n + (t - n)) with (piped + t) in IH by lia. replace (i + n + (t - n)) with (i + t) in IH by lia.
          assert (Hs : stretch g i t = stretch g i n ++ stretch g (i + n) (t - n)) by (rewrite <- stretch_app; f_equal; lia).
          rewrite Hs, m_feed_app. unfold takes in HT. rewrite HT.
          destruct (m_feed M (stretch g (i + n) (t - n)) a1) as [[a2 q] [e|]]; [|exact IH].
          destruct IH as (sp' & sc' & j & E5 & Hj & H5 & H6). exists sp', sc', (n + j). rewrite Nat.add_assoc. splits; auto. lia.
        + assert (HM2 : m_feed M (stretch g i t) a = (a1, n, Some e)).
          { apply (m_feed_prefix_err (Nat.min t len)). rewrite stretch_firstn. now replace (Nat.min (Nat.min t len) t) with (Nat.min t len) by lia. }
          rewrite HM2. exists sp1, sc1, 0. rewrite Nat.add_0_r. splits; [reflexivity|lia|exact (en_forget L HP1)|exact HD]. }
    intros fuel count sp sc a i k kc w. exact (@H fuel count 0 sp sc a i k kc w).
  Qed.
End Pipes.

(** ** The contract in terms of calls, and as a relation *)
Section Exactly.
  Context {S T F E : Type} {P : bulk_producer S T F E} {g : nat -> T}.

  Lemma e_answer_less : forall o i k (r : pans T F E) i' k' j, e_answer g i k o r i' k' -> j <= k -> exists j', e_answer g i j o r i' j' /\ j' <= k'.
  Proof.
    intros o i k r i' k' j H Hj. destruct o as [| | |n|buf], r as [r|r|r|buf' r]; cbn [e_answer] in *; try contradiction.
    - destruct H as (-> & -> & ->). exists (j - 1). splits; auto. lia.
    - destruct H as (-> & -> & ->). exists j. auto.
    - destruct H as (-> & H1 & ->). exists k'. splits; auto.
    - destruct H as (-> & -> & ->). exists (j - n). splits; auto. lia.
    - destruct H as (n & H1 & -> & -> & -> & ->). exists 0. split; [|lia]. exists n. splits; auto; lia.
  Qed.

  Lemma e_conforms_less : forall ops s i k j, e_conforms P g ops s i k -> j <= k -> e_conforms P g ops s i j.
  Proof.
    induction ops as [|o ops IH]; intros s i k j H Hj; [constructor|]. inversion H as [|? ? ? ? ? Hp|? ? ? ? ? s' r i' k' Hp E1 A1 H1]; subst.
    - apply e_conforms_broken. intros Hq. apply Hp. destruct o; cbn in *; auto. lia.
    - destruct (e_permitted_dec j o) as [Hq|Hq]; [|now apply e_conforms_broken].
      edestruct e_answer_less as (j' & A2 & Hj'); [exact A1|exact Hj|]. eapply e_conforms_step; eauto.
  Qed.

  Lemma e_answer_det : forall o i k (r : pans T F E) i1 k1 i2 k2, e_answer g i k o r i1 k1 -> e_answer g i k o r i2 k2 -> i1 = i2 /\ k1 = k2.
  Proof.
    intros o i k r i1 k1 i2 k2 H1 H2. destruct o as [| | |n|buf], r as [r|r|r|buf' r]; cbn [e_answer] in *; try contradiction.
    - destruct H1 as (-> & -> & ->), H2 as (_ & -> & ->). auto.
    - destruct H1 as (-> & -> & ->), H2 as (_ & -> & ->). auto.
    - destruct H1 as (-> & _ & ->), H2 as (H2 & _ & ->). injection H2 as H2. apply (f_equal (@length T)) in H2. rewrite !stretch_length in H2. auto.
    - destruct H1 as (-> & -> & ->), H2 as (_ & -> & ->). auto.
    - destruct H1 as (n & _ & -> & _ & -> & ->), H2 as (m & _ & H2 & _ & -> & ->). injection H2 as ->. auto.
  Qed.

  (** One more call. *)
  Lemma e_conforms_next : forall o s i k, (forall ops, e_conforms P g ops s i k) -> e_permitted k o ->
    exists s' r i' k', p_do P o s = Ret (s', r) /\ e_answer g i k o r i' k' /\ forall ops, e_conforms P g ops s' i' k'.
  Proof.
    intros o s i k H Hp. pose proof (H [o]) as H1. inversion H1 as [|? ? ? ? ? Hq|? ? ? ? ? s' r i' k' _ E1 A1 _]; subst; [contradiction|].
    exists s', r, i', k'. splits; auto. intros ops. pose proof (H (o :: ops)) as H2.
    inversion H2 as [|? ? ? ? ? Hq|? ? ? ? ? s2 r2 i2 k2 _ E2 A2 H3]; subst; [contradiction|].
    rewrite E1 in E2. injection E2 as <- <-. now destruct (@e_answer_det _ _ _ _ _ _ _ _ A1 A2) as [-> ->].
  Qed.

  Lemma bind_pair : forall X Y Z (c : outcome (X * Y)) (w : Y -> Z) s r, (let* (s, r) := c in Ret (s, w r)) = Ret (s, r) -> exists r0, c = Ret (s, r0) /\ r = w r0.
  Proof. intros X Y Z [[s0 r0]| |] w s r H; try discriminate. injection H as <- <-. eauto. Qed.

  Lemma conforming_endless : endless_producer P g (fun s i k => forall ops, e_conforms P g ops s i k).
  Proof.
    constructor; [constructor|].
    - intros s i k H ops. eapply e_conforms_less; [exact (H ops)|lia].
    - intros s i k H. destruct (@e_conforms_next PProduce _ _ _ H Logic.I) as (s' & r & i' & k' & E1 & A1 & H1).
      cbn [p_do] in E1. apply bind_pair in E1 as (r0 & E1 & ->). destruct A1 as (-> & -> & ->). eauto.
    - intros s i k H. destruct (@e_conforms_next PSlurp _ _ _ H Logic.I) as (s' & r & i' & k' & E1 & A1 & H1).
      cbn [p_do] in E1. apply bind_pair in E1 as (r0 & E1 & ->). destruct A1 as (-> & -> & ->). eauto.
    - intros s i k H. destruct (@e_conforms_next PExpose _ _ _ H Logic.I) as (s' & r & i' & k' & E1 & A1 & H1).
      cbn [p_do] in E1. apply bind_pair in E1 as (r0 & E1 & ->). destruct A1 as (-> & A1 & ->). eauto 6.
    - intros s i k n H Hk Hn. destruct (@e_conforms_next (PConsider n) _ _ _ H (conj Hk Hn)) as (s' & r & i' & k' & E1 & A1 & H1).
      cbn [p_do] in E1. apply bind_pair in E1 as (r0 & E1 & ->). destruct A1 as (-> & -> & ->). eauto.
    - intros s i k buf H Hb. destruct (@e_conforms_next (PBulkProduce buf) _ _ _ H Hb) as (s' & r & i' & k' & E1 & A1 & H1).
      cbn [p_do] in E1. destruct (p_bulk_produce P buf s) as [[s2 [buf2 r2]]| |]; cbn [bind] in E1; [|discriminate|discriminate]. injection E1 as <- <-.
      destruct A1 as (n & Hn & -> & -> & -> & ->). eauto 6.
  Qed.

  Lemma goes_on_iff : forall s i, goes_on P g s i <-> forall ops, e_conforms P g ops s i 0.
  Proof.
    intros s i. split.
    - intros (R & L & HR) ops. now apply (endless_conforms L).
    - intros H. exists (fun s i k => forall ops, e_conforms P g ops s i k). split; [exact conforming_endless|exact H].
  Qed.
End Exactly.

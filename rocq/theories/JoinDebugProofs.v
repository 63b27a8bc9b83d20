(** The tasks of the compat targets with debug assertions and more bytes than the scrambler takes at once. *)
From Coq Require Import Bool List Arith Lia.
From Verif Require Import Prelude ListFacts QueueModel QueueSpec QueueProofs Traits Contracts ScramblerModel ScramblerProofs IoModel IoSpec IoProofs
  FuzzModel FuzzIoModel FuzzIoSpec FuzzIoProofs FuzzScramblerProofs AsyncModel AsyncSpec AsyncProofs AsyncAdaptorModel AsyncAdaptorProofs AsyncIoModel AsyncIoSpec AsyncIoProofs
  AsyncSuspendProofs AsyncIoSuspendProofs JoinModel JoinSpec CorrProofs JoinProofs JoinTaskProofs JoinRunProofs.
Import ListNotations.
Set Implicit Arguments.
Set Warnings "-abstract-large-number".

(** ** [f1] does what [f2] does, unless it panics *)
Fixpoint less {S X} (f1 f2 : fut S X) {struct f1} : Prop :=
  match f1 with
  | Fut p1 => forall s,
      match p1 s with
      | Ret (s', Ready x) => poll f2 s = Ret (s', Ready x)
      | Ret (s', Pending w k1) => exists k2, poll f2 s = Ret (s', Pending w k2) /\ less k1 k2
      | Panic => True
      | NoFuel => poll f2 s = NoFuel
      end
  end.

Lemma less_refl : forall S X (f : fut S X), less f f.
Proof.
  intros S X. fix IH 1. intros [p]. cbn [less poll]. intros s. destruct (p s) as [[s' [x|w k]]| |]; try reflexivity; try exact Logic.I.
  exists k. split; [reflexivity|apply IH].
Qed.

Lemma less_poll : forall S X (f1 f2 : fut S X), less f1 f2 <-> forall s,
  match poll f1 s with
  | Ret (s', Ready x) => poll f2 s = Ret (s', Ready x)
  | Ret (s', Pending w k1) => exists k2, poll f2 s = Ret (s', Pending w k2) /\ less k1 k2
  | Panic => True
  | NoFuel => poll f2 s = NoFuel
  end.
Proof. intros S X [p] f2. reflexivity. Qed.

Lemma less_await : forall S X Y (f1 f2 : fut S X) (k1 k2 : X -> fut S Y), less f1 f2 -> (forall x, less (k1 x) (k2 x)) -> less (await f1 k1) (await f2 k2).
Proof.
  intros S X Y. fix IH 1. intros [p] f2 k1 k2 H HK. apply less_poll. intros s. rewrite !poll_await. specialize (H s). cbn [poll] in *.
  destruct (p s) as [[s' [x|w k]]| |]; cbn [poll].
  - rewrite H. exact (proj1 (less_poll _ _) (HK x) s').
  - destruct H as (k' & -> & H). eexists. split; [reflexivity|]. now apply IH.
  - exact Logic.I.
  - now rewrite H.
Qed.

Lemma less_sync : forall S X (g1 g2 : S -> outcome (S * X)), (forall s, g1 s = Panic \/ g1 s = g2 s) -> less (sync g1) (sync g2).
Proof.
  intros S X g1 g2 H. apply less_poll. intros s. unfold sync. cbn [poll]. destruct (H s) as [-> | ->]; cbn [bind]; [exact Logic.I|].
  destruct (g2 s) as [[s' x]| |]; cbn [bind]; try reflexivity; exact Logic.I.
Qed.

Lemma less_attempt : forall S X (o1 o2 : outcome X), o1 = Panic \/ o1 = o2 -> less (S := S) (attempt o1) (attempt o2).
Proof. intros S X o1 o2 H. apply less_sync. intros s. destruct H as [-> | ->]; auto. Qed.

Lemma less_assert : forall S b, less (S := S) (attempt (debug_assert true b (Ret tt))) (attempt (debug_assert false b (Ret tt))).
Proof. intros S b. apply less_attempt. destruct b; cbn; auto. Qed.

Ltac lstep :=
  match goal with
  | |- less ?f ?f => apply less_refl
  | |- less (attempt (debug_assert true _ _)) _ => apply less_assert
  | |- less (await _ _) (await _ _) => apply less_await; [|intros ?]
  | |- less (match ?x with _ => _ end) (match ?x with _ => _ end) => destruct x
  | |- less (let _ := _ in _) (let _ := _ in _) => cbv zeta
  end.
Ltac lgo := repeat lstep.

(** *** The scrambler for consumers *)
Section Cscr.
  Context {S T F E : Type} (d : T) (C : a_bulk_consumer S T F E).

  Lemma less_cscr_perform : less (a_cscr_perform_operation true d C) (a_cscr_perform_operation false d C).
  Proof. unfold a_cscr_perform_operation. lgo. Qed.

  Lemma less_cscr_drain : forall fuel, less (a_cscr_drain true d fuel C) (a_cscr_drain false d fuel C).
  Proof.
    induction fuel as [|fuel IH]; cbn [a_cscr_drain]; [lgo|]. lstep; [lgo|]. lstep; [|lgo]. lstep; [apply less_cscr_perform|]. lgo. exact IH.
  Qed.

  Lemma less_cscr_consume : forall fuel x, less (a_cscr_consume true d fuel C x) (a_cscr_consume false d fuel C x).
  Proof. intros fuel x. unfold a_cscr_consume. lstep; [lgo|]. lstep; [|lgo]. lstep; [apply less_cscr_drain|]. lgo. Qed.

  Lemma less_cscr_close : forall fuel f, less (a_cscr_close true d fuel C f) (a_cscr_close false d fuel C f).
  Proof. intros fuel f. unfold a_cscr_close. lstep; [apply less_cscr_drain|]. lgo. Qed.
End Cscr.

Lemma less_fuzz_send : forall S E (C1 C2 : a_consumer S nat unit E), (forall x, less (ac_consume C1 x) (ac_consume C2 x)) -> less (ac_close C1 tt) (ac_close C2 tt) ->
  forall input, less (a_fuzz_send C1 input) (a_fuzz_send C2 input).
Proof.
  intros S E C1 C2 H1 H2 input. unfold a_fuzz_send. lstep.
  - induction input as [|x input IH]; cbn [a_send_each]; [lgo|]. lstep; [apply H1|]. lgo. exact IH.
  - lstep; [exact H2|]. lgo.
Qed.

(** ** A sender that is going to panic *)
Section Doomed.
  Context {T : Type} (x0 : T).
  Context (capacity : nat) (Hcap : 1 <= capacity) (input : list T).
  Context {SR SR2 SS SS2 : Type}.
  Context (hr : holds T SR) (vr : view (conn T) (conn T) SR SR2).
  Context (Hr_set : forall c s, h_set hr c s = v_set vr c s) (Hr_conn : forall s, h_conn hr s = v_end vr s)
    (Hr_end : forall c s, v_end vr (v_set vr c s) = c).
  Context (hs : holds T SS) (vs : view (conn T) (conn T) SS SS2) (vg : view (list (wcall T)) unit SS2 SS2).
  Context (Hs_set : forall c s, h_set hs c s = v_set vs c s) (Hs_conn : forall s, h_conn hs s = v_end vs s)
    (Hs_end : forall c s, v_end vs (v_set vs c s) = c)
    (Hs_rel : forall sc s1 s2, v_rel vs sc s1 s2 -> send_rel (v_end vs s1) (v_end vg s2)) (Hvg : forall sc s, v_rel vg sc s s).

  Definition doomed (n : nat) (k1 : fut SS unit) (s1 : SS) : Prop := forall e sc, exists s2 k2,
    v_rel vs sc (v_set vs (env_but_sent e (v_end vs s1)) s1) s2 /\ corr env_but_sent (G_s capacity) (B_s capacity) n vs eq k1 k2 /\ run k2 s2 = Panic.

  Lemma doomed_poll : forall n f s c, doomed (Datatypes.S n) f s -> cn_closed c = cn_closed (v_end vs s) -> cn_sent c = cn_sent (v_end vs s) ->
    match poll f (v_set vs c s) with
    | Ret (s', Pending _ k) => doomed n k s'
    | Panic => True
    | _ => False
    end.
  Proof.
    intros n f s c H Hc Hs.
    assert (Ec : env_but_sent c (v_end vs s) = c) by (unfold env_but_sent; rewrite <- Hc, <- Hs; now destruct c).
    assert (H0 := fun sc => H c sc). rewrite Ec in H0. clear H.
    destruct (poll f (v_set vs c s)) as [[s' [x|w k]]| |] eqn:Ep; [| |exact Logic.I|].
    - destruct (H0 []) as (s2 & k2 & HR & HC & HE). specialize (HC _ _ _ HR). rewrite Ep in HC. destruct HC as (_ & s3 & y & E2 & _).
      rewrite run_poll, E2 in HE. discriminate.
    - intros e sc. destruct (H0 (e :: sc)) as (s2 & k2 & HR & HC & HE). specialize (HC _ _ _ HR). rewrite Ep in HC. destruct HC as (_ & _ & HC).
      destruct (HC e sc eq_refl) as (s3 & k3 & E2 & HR' & HC'). rewrite run_poll, E2 in HE. exists s3, k3. auto.
    - destruct (H0 []) as (s2 & k2 & HR & HC & HE). specialize (HC _ _ _ HR). rewrite Ep in HC. rewrite run_poll, HC in HE. discriminate.
  Qed.

  (** The tasks, and what they would do without debug assertions. *)
  Definition K (nr ns : nat) (j j' : joint T SR SS) : Prop :=
    j_conn j = j_conn j' /\ j_receive j = j_receive j' /\ J capacity input vr vs vg nr ns j' /\
    exists f f' s, j_send j = Running f s /\ j_send j' = Running f' s /\ less f f' /\ doomed ns f s.

  Lemma K_receive : forall nr ns j j', K (Datatypes.S nr) ns j j' -> exists j1 j1', poll_receive hr j = Ret j1 /\ poll_receive hr j' = Ret j1' /\ K nr ns j1 j1'.
  Proof.
    intros nr ns [c r t] [c' r' t'] (E1 & E2 & HJ & f & f' & s & E3 & E4 & HL & HD). cbn [j_conn j_receive j_send] in E1, E2, E3, E4. subst c r t t'.
    destruct (J_receive x0 Hcap hr Hr_set Hr_conn Hr_end HJ) as (j1' & F1 & HJ1 & F2 & _). 
    exists (mk_joint (j_conn j1') (j_receive j1') (Running f s)), j1'.
    unfold poll_receive in *. cbn [j_conn j_receive j_send] in *.
    destruct (poll_task hr c' r') as [[c1 t1]| |]; cbn [bind] in *; try discriminate. injection F1 as <-. cbn [j_conn j_receive j_send] in *.
    split; [reflexivity|]. split; [reflexivity|]. split; [reflexivity|]. split; [reflexivity|]. split; [exact HJ1|].
    exists f, f', s. auto.
  Qed.

  Lemma K_send : forall nr ns j j', K nr (Datatypes.S ns) j j' -> poll_send hs j = Panic \/ exists j1 j1', poll_send hs j = Ret j1 /\ poll_send hs j' = Ret j1' /\ K nr ns j1 j1'.
  Proof.
    intros nr ns [c r t] [c' r' t'] (E1 & E2 & HJ & f & f' & s & E3 & E4 & HL & HD). cbn [j_conn j_receive j_send] in E1, E2, E3, E4. subst c r t t'.
    destruct (J_send hs Hs_set Hs_conn Hs_end Hs_rel Hvg HJ) as (j1' & F1 & HJ1 & _).
    destruct HJ as (_ & _ & (_ & A1 & A2 & _) & _). cbn [j_conn] in A1, A2.
    pose proof (@doomed_poll ns f s c' HD A1 A2) as HP. apply less_poll with (s := v_set vs c' s) in HL.
    unfold poll_send in *. cbn [j_conn j_receive j_send poll_task] in *. rewrite Hs_set in *.
    destruct (poll f (v_set vs c' s)) as [[s1 [x|w k]]| |]; try contradiction; [|left; reflexivity].
    right. destruct HL as (k' & EL & HL). rewrite EL in F1. cbn [bind] in F1. injection F1 as <-.
    exists (mk_joint (h_conn hs s1) r' (Running k s1)), (mk_joint (h_conn hs s1) r' (Running k' s1)). rewrite EL. cbn [bind].
    split; [reflexivity|]. split; [reflexivity|]. split; [reflexivity|]. split; [reflexivity|]. split; [exact HJ1|]. exists k, k', s1. auto.
  Qed.

  Lemma K_reset : forall nr ns j j', K nr ns j j' ->
    K nr ns (mk_joint (reset_woken (j_conn j)) (j_receive j) (j_send j)) (mk_joint (reset_woken (j_conn j')) (j_receive j') (j_send j')).
  Proof. intros nr ns j j' (E1 & E2 & HJ & H). split; [cbn; now rewrite E1|]. split; [exact E2|]. split; [exact HJ|exact H]. Qed.

  Lemma K_not_done : forall nr ns j j', K nr ns j j' -> both_done j = false /\ both_done j' = false /\ j_send j <> Done /\ j_send j' <> Done.
  Proof.
    intros nr ns j j' (E1 & E2 & HJ & f & f' & s & E3 & E4 & _). unfold both_done. rewrite E3, E4.
    split; [now destruct (j_receive j)|]. split; [now destruct (j_receive j')|]. split; discriminate.
  Qed.

  Lemma K_sound : forall nr ns j j', K nr ns j j' -> sound_joint capacity input j.
  Proof.
    intros nr ns j j' HK. pose proof (K_not_done HK) as (_ & _ & ND & _). destruct HK as (E1 & E2 & (H1 & H2 & H3 & H4) & f & f' & s & E3 & E4 & _).
    rewrite <- E1 in *. rewrite E4 in H3. destruct H3 as (_ & _ & _ & H3). split; [exact H2|]. split; [exact H1|]. split; [congruence|].
    intros E. rewrite E2 in E. rewrite E in H4. congruence.
  Qed.

  Lemma K_exec : forall schedule nr ns j j', turns Receive schedule <= nr -> turns Send schedule <= ns -> K nr ns j j' ->
    exec hr hs schedule j = Panic \/ exists j1 j1' nr' ns', exec hr hs schedule j = Ret j1 /\ exec hr hs schedule j' = Ret j1' /\ K nr' ns' j1 j1'.
  Proof.
    induction schedule as [|[] schedule IH]; intros nr ns j j' H1 H2 HK; cbn [exec turns] in *.
    - right. exists j, j', nr, ns. auto.
    - destruct nr as [|nr]; [lia|]. destruct (K_receive HK) as (j1 & j1' & -> & -> & HK1). cbn [bind]. eapply IH; [| |exact HK1]; lia.
    - destruct ns as [|ns]; [lia|]. destruct (K_send HK) as [->|(j1 & j1' & -> & -> & HK1)]; [now left|]. cbn [bind]. eapply IH; [| |exact HK1]; lia.
  Qed.

  Lemma K_block_on : forall polls n j j', polls <= n -> K n n j j' -> block_on_join hr hs polls j = Panic \/ block_on_join hr hs polls j' = NoFuel.
  Proof.
    induction polls as [|polls IH]; intros n j j' Hn HK; [right; reflexivity|]. destruct n as [|n]; [lia|]. cbn [block_on_join]. unfold poll_join.
    destruct (K_receive (K_reset HK)) as (j1 & j1' & -> & -> & HK1). cbn [bind].
    destruct (K_send HK1) as [->|(j2 & j2' & -> & -> & HK2)]; [now left|]. cbn [bind].
    destruct (K_not_done HK2) as (-> & -> & _). pose proof (proj1 HK2) as <-. destruct (cn_woken (j_conn j2)); [|now right].
    apply (IH n); [lia|exact HK2].
  Qed.

  Lemma K_spawned : forall prefer ready_r ready_s nr ns j j', length prefer <= nr -> length prefer <= ns -> K nr ns j j' ->
    spawned hr hs prefer ready_r ready_s j = Panic \/
    exists j1' ready, spawned hr hs prefer ready_r ready_s j' = Ret (j1', ready) /\ both_done j1' = false.
  Proof.
    induction prefer as [|t prefer IH]; intros rr rs nr ns j j' Hnr Hns HK; cbn [spawned length] in *.
    - right. eexists _, _. split; [reflexivity|]. apply (K_not_done HK).
    - destruct nr as [|nr]; [lia|]. destruct ns as [|ns]; [lia|].
      destruct (match t with Receive => rr | Send => rr && negb rs end).
      + destruct (K_receive (K_reset HK)) as (j1 & j1' & -> & -> & HK1). cbn [bind]. pose proof (proj1 HK1) as <-. apply (IH _ _ nr (Datatypes.S ns)); [lia|lia|exact HK1].
      + destruct rs.
        * destruct (K_send (K_reset HK)) as [->|(j1 & j1' & -> & -> & HK1)]; [now left|]. cbn [bind]. pose proof (proj1 HK1) as <-.
          apply (IH _ _ (Datatypes.S nr) ns); [lia|lia|exact HK1].
        * right. eexists _, _. split; [reflexivity|]. apply (K_not_done HK).
  Qed.

  Section Start.
    Context (wait : nat) (receive : task SR) (send send' : task SS).
    Context (Hr : match receive with Running f s => good_r input vr wait f s [] | Done => False end).
    Context (Hs : match send' with Running f s => good_s capacity input vs vg wait f s /\ cn_closed (v_end vs s) = false /\ cn_sent (v_end vs s) = [] | Done => False end).
    Context (Hd : exists f f' s, send = Running f s /\ send' = Running f' s /\ less f f' /\ doomed wait f s).

    Lemma start_K : forall limits, K wait wait (mk_joint (conn_new limits) receive send) (mk_joint (conn_new limits) receive send').
    Proof. intros limits. split; [reflexivity|]. split; [reflexivity|]. split; [now apply start_J|exact Hd]. Qed.

    Lemma exec_doomed : forall limits schedule, length schedule <= wait ->
      exec hr hs schedule (mk_joint (conn_new limits) receive send) = Panic \/
      (exists j, exec hr hs schedule (mk_joint (conn_new limits) receive send) = Ret j /\ sound_joint capacity input j /\ j_send j <> Done) /\
        rounds false schedule < length input + 2.
    Proof.
      intros limits schedule Hl. pose proof (turns_le Receive schedule) as H1. pose proof (turns_le Send schedule) as H2.
      destruct (@K_exec schedule wait wait _ _ (Nat.le_trans _ _ _ H1 Hl) (Nat.le_trans _ _ _ H2 Hl) (start_K limits)) as [E|(j1 & j1' & nr & ns & E & E' & HK)]; [now left|].
      right. split; [exists j1; split; [exact E|]; split; [exact (K_sound HK)|apply (K_not_done HK)]|].
      destruct (@runs_safely T x0 capacity Hcap input _ _ _ _ hr vr Hr_set Hr_conn Hr_end hs vs vg Hs_set Hs_conn Hs_end Hs_rel Hvg wait _ _ Hr Hs limits schedule Hl) as (j2 & E2 & _ & HF).
      rewrite E' in E2. injection E2 as <-. destruct (K_not_done HK) as (_ & ND & _). destruct (le_lt_dec (length input + 2) (rounds false schedule)) as [Hle|Hlt]; [|exact Hlt].
      rewrite (HF Hle) in ND. discriminate.
    Qed.

    Lemma block_on_doomed : forall limits polls, length input + 2 <= polls <= wait ->
      block_on_join hr hs polls (mk_joint (conn_new limits) receive send) = Panic.
    Proof.
      intros limits polls Hl. destruct (@K_block_on polls wait _ _ (proj2 Hl) (start_K limits)) as [E|E]; [exact E|].
      destruct (@blocks_until_done T x0 capacity Hcap input _ _ _ _ hr vr Hr_set Hr_conn Hr_end hs vs vg Hs_set Hs_conn Hs_end Hs_rel Hvg wait _ _ Hr Hs limits polls Hl) as (j2 & E2 & _).
      rewrite E in E2. discriminate.
    Qed.

    Lemma spawned_doomed : forall limits prefer, 2 * length input + 5 <= length prefer <= wait ->
      spawned hr hs prefer true true (mk_joint (conn_new limits) receive send) = Panic.
    Proof.
      intros limits prefer Hl. destruct (@K_spawned prefer true true wait wait _ _ (proj2 Hl) (proj2 Hl) (start_K limits)) as [E|(j1 & ready & E & ND)]; [exact E|].
      destruct (@spawned_until_done T x0 capacity Hcap input _ _ _ _ hr vr Hr_set Hr_conn Hr_end hs vs vg Hs_set Hs_conn Hs_end Hs_rel Hvg wait _ _ Hr Hs limits prefer Hl) as (j2 & ready' & E2 & HD & _).
      rewrite E in E2. injection E2 as <- _. congruence.
    Qed.
  End Start.
End Doomed.

(** ** The targets *)
Section Targets.
  Context (fuel wait capacity : nat) (input : list nat) (scap : nat) (consume_ops : list cscr_op).
  Context (Hlen : scrambler_capacity < length input).
  Context (Hn : forall n, In (ScConsumeSlots n) consume_ops -> 1 <= n).
  Context (Hf : Datatypes.S scrambler_capacity * Datatypes.S (length consume_ops) <= fuel).

  Lemma script_panics : forall c sc,
    run (a_fuzz_send (script_consumer true fuel wait capacity) input) (compat_sender ((c, sc), []) (clamp 1 2048 scap) consume_ops) = Panic.
  Proof.
    intros c sc.
    assert (Hc : 1 <= clamp 1 2048 scap) by (apply clamp_bounds; lia).
    pose proof (clamp_fuel scap Hf) as Hq. unfold compat_sender. set (cc := clamp 1 2048 scap) in *.
    pose proof (working_writer_lawful (@script_writer_works nat capacity wait) (@fixed_lawful nat cc) Hc Hq) as L0.
    apply (same_lawful_consumer _ _ _ _ _ _ _ _ _ _ (same_logged_writer _ _ _)) in L0. destruct L0 as [L _].
    assert (H0 : ww_rel (fixed_R cc) (mk_writer_state ((c, sc), []) (fixed_new 0 cc)) [] 0 []).
    { apply ww_rel_new. now apply fixed_new_R. }
    destruct (@cscr_ready _ _ _ _ _ 0 _ _ _ _ _ _ consume_ops scrambler_capacity fuel L H0 scrambler_capacity_pos Hn Hf) as (OK & Hf' & HR).
    rewrite run_fuzz_send.
    match goal with |- context [fuzz_send ?C ?i ?s] => assert (E0 : fuzz_send C i s = Panic) end; [|now rewrite E0].
    etransitivity; [exact (fuzz_send_same (proj1 (proj1 (@same_cscr_consumer _ _ _ _ true 0 fuel _))) _ _)|].
    unfold fuzz_send. rewrite send_each_consumes.
    rewrite (@send_each_panics _ _ _ _ L fuel _ OK scrambler_capacity Hf' input _ [] [] (Nat.le_0_l _) Hlen HR). reflexivity.
  Qed.

  Lemma compat_send_doomed : exists f f' s, compat_send true fuel wait capacity input scap consume_ops = Running f s /\
    compat_send false fuel wait capacity input scap consume_ops = Running f' s /\ less f f' /\ doomed capacity sender_view wait f s.
  Proof.
    eexists _, _, _. split; [reflexivity|]. split; [reflexivity|]. split.
    - apply less_fuzz_send; [intros x; apply less_cscr_consume|apply less_cscr_close].
    - intros e sc. set (c1 := env_but_sent e (conn_new [])).
      exists (compat_sender ((c1, sc), []) (clamp 1 2048 scap) consume_ops), (a_fuzz_send (script_consumer true fuel wait capacity) input).
      split; [cbn; unfold send_rel; splits; try reflexivity; intros []|]. split; [|apply script_panics].
      apply corr_fuzz_send; [apply G_s_refl|apply G_s_trans|]. apply corr_cscr_consumer; [apply G_s_refl|apply G_s_trans|].
      apply corr_writer_consumer; [apply G_s_refl|apply G_s_trans|]. apply corr_conn_writer. lia.
  Qed.
End Targets.

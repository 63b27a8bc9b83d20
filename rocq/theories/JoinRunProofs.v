(** The two tasks of the compat targets, polled in any order. *)
From Coq Require Import Bool List Arith Lia.
From Verif Require Import Prelude ListFacts QueueModel Traits ScramblerModel IoModel IoSpec IoProofs
  FuzzModel FuzzIoModel FuzzIoSpec FuzzIoProofs AsyncModel AsyncSpec AsyncProofs AsyncAdaptorModel AsyncIoModel AsyncIoSpec
  JoinModel JoinSpec CorrProofs JoinProofs JoinTaskProofs.
Import ListNotations.
Set Implicit Arguments.
Set Warnings "-abstract-large-number".

Local Arguments received : simpl never.

(** ** The ends of the connection *)

Section Ends.
Context {T : Type}.

(** What a receiver does to the connection. *)
Definition G_r (c c' : conn T) : Prop :=
  (exists k, cn_buf c' = skipn k (cn_buf c)) /\ cn_closed c' = cn_closed c /\ cn_sent c' = cn_sent c /\
  (cn_woken c = true -> cn_woken c' = true) /\
  (cn_writing c = true -> (cn_buf c' = cn_buf c /\ cn_writing c' = true) \/ cn_woken c' = true).
Definition B_r (c : conn T) : Prop := cn_buf c = [] /\ cn_closed c = false /\ cn_reading c = true.

Lemma G_r_refl : forall c : conn T, G_r c c.
Proof. intros c. split; [now exists 0|auto 6]. Qed.
Lemma G_r_trans : forall c c' c'' : conn T, G_r c c' -> G_r c' c'' -> G_r c c''.
Proof.
  intros c c' c'' ((k & E) & H1 & H2 & H3 & H4) ((k' & E') & H1' & H2' & H3' & H4').
  split; [|split; [congruence|split; [congruence|split; [auto|]]]].
  - exists (k + k'). rewrite E', E. apply skipn_skipn.
  - intros H. destruct (H4 H) as [[A1 A2]|A]; [|auto]. destruct (H4' A2) as [[A3 A4]|A]; [|auto]. left. split; congruence.
Qed.

Definition recv_view : view (conn T) (conn T) (conn T) (conn T * list (conn T)) := mk_view (fun sc c s2 => s2 = (c, sc)) (fun c => c) (fun c _ => c).

Lemma corr_conn_reader : forall n fuel, n <= fuel -> corr_reader env_all G_r B_r n recv_view (conn_reader fuel) (script_reader fuel).
Proof.
  intros n fuel Hn buf. cbn [conn_reader script_reader ar_read]. revert fuel Hn. induction n as [|n IH]; intros [|fuel] Hn; try exact Logic.I; [lia|].
  cbn -[conn_read_now script_wait conn_wait]. intros sc c s2 ->. cbn -[conn_read_now].
  assert (HS : forall c' x, conn_read_now buf c = Some (c', x) -> G_r c c').
  { intros c' x. unfold conn_read_now. destruct buf as [|b buf]; [intros [= <- <-]; apply G_r_refl|].
    destruct (cn_buf c) as [|y ys] eqn:Eb; [destruct (cn_closed c); [intros [= <- <-]; apply G_r_refl|discriminate]|].
    intros [= <- <-]. unfold G_r. cbn. splits; auto; [rewrite Eb; eexists; reflexivity|now intros ->|]. intros ->. right. apply orb_true_r. }
  destruct (conn_read_now buf c) as [[c' x]|] eqn:Er; cbn -[conn_read_now].
  - split; [exact (HS c' x eq_refl)|]. exists (c', sc), x. auto.
  - assert (HB : cn_buf c = [] /\ cn_closed c = false).
    { revert Er. unfold conn_read_now. destruct buf; [discriminate|]. destruct (cn_buf c); [|discriminate]. destruct (cn_closed c); [discriminate|auto]. }
    destruct HB as [Hb Hc]. split; [unfold G_r; cbn; splits; auto; now exists 0|]. split; [cbn; unfold B_r; auto|].
    intros e sc' ->. eexists _, _. split; [reflexivity|]. split; [reflexivity|]. apply IH. lia.
Qed.

(** What a sender does to the connection. *)
Section Sender.
  Context (capacity : nat).

  Definition G_s (c c' : conn T) : Prop := exists new,
    cn_sent c' = cn_sent c ++ new /\ cn_buf c' = cn_buf c ++ new /\ (cn_closed c = true -> cn_closed c' = true) /\
    (cn_woken c = true -> cn_woken c' = true) /\
    (cn_reading c = true -> (new = [] /\ cn_closed c' = cn_closed c /\ cn_reading c' = true) \/ cn_woken c' = true) /\
    (length (cn_buf c) <= capacity -> cn_closed c' = false -> length (cn_buf c') <= capacity).
  Definition B_s (c : conn T) : Prop := cn_closed c = false /\ capacity <= length (cn_buf c) /\ cn_writing c = true.

  Lemma G_s_refl : forall c : conn T, G_s c c.
  Proof. intros c. exists []. rewrite !app_nil_r. splits; auto. Qed.
  Lemma G_s_trans : forall c c' c'' : conn T, G_s c c' -> G_s c' c'' -> G_s c c''.
  Proof.
    intros c c' c'' (n1 & A1 & A2 & A3 & A4 & A5 & A6) (n2 & D1 & D2 & D3 & D4 & D5 & D6). exists (n1 ++ n2).
    split; [now rewrite D1, A1, app_assoc|]. split; [now rewrite D2, A2, app_assoc|]. split; [auto|]. split; [auto|]. split.
    - intros H. destruct (A5 H) as [(E1 & E2 & E3)|E]; [|auto]. destruct (D5 E3) as [(E4 & E5 & E6)|E]; [|auto]. left. subst. splits; auto. congruence.
    - intros H1 H2. apply D6; [|exact H2]. apply A6; [exact H1|]. destruct (cn_closed c'); [|reflexivity]. now rewrite D3 in H2.
  Qed.

  Definition send_rel (c : conn T) (log : list (wcall T)) : Prop :=
    cn_sent c = received log /\ (In (WClose (Ok tt)) log -> cn_closed c = true).
  Definition send_view : view (conn T) (conn T) (conn T) ((conn T * list (conn T)) * list (wcall T)) :=
    mk_view (fun sc c s2 => fst s2 = (c, sc) /\ send_rel c (snd s2)) (fun c => c) (fun c _ => c).

  Lemma corr_logged : forall X (now : conn T -> option (conn T * X)) give_up (call : X -> wcall T),
    (forall c c' x, now c = Some (c', x) -> G_s c c' /\ forall log, send_rel c log -> send_rel c' (log ++ [call x])) ->
    (forall c, now c = None -> B_s (conn_await_room c)) ->
    forall n fuel, n <= fuel ->
    corr env_but_sent G_s B_s n send_view eq (conn_wait now conn_await_room fuel) (a_log (script_wait env_but_sent now conn_await_room give_up fuel) call).
  Proof.
    intros X now give_up call HS HN. induction n as [|n IH]; intros [|fuel] Hn; try exact Logic.I; [lia|].
    intros sc c [[c2 sc2] log] [E HR]. cbn in E, HR. injection E as -> ->. cbn. destruct (now c) as [[c' x]|] eqn:Er; cbn.
    - destruct (HS _ _ _ Er) as [HG HL]. split; [exact HG|]. exists ((c', sc), log ++ [call x]), x. cbn. auto 6.
    - split; [exists []; rewrite !app_nil_r; cbn; splits; auto|]. split; [exact (HN _ Er)|].
      intros e sc' ->. cbn. eexists _, _. split; [reflexivity|]. split; [split; [reflexivity|exact HR]|]. apply IH. lia.
  Qed.

  Lemma corr_conn_writer : forall n fuel, n <= fuel ->
    corr_writer env_but_sent G_s B_s n send_view (conn_writer capacity fuel) (a_logged (script_writer capacity fuel)).
  Proof.
    intros n fuel Hn.
    split; [|split]; cbn [conn_writer a_logged script_writer aw_write aw_flush aw_close]; [intros data|..]; apply corr_logged; auto; try discriminate.
    - intros c c' r. unfold conn_write_now. destruct data as [|d data].
      { intros [= <- <-]. split; [apply G_s_refl|]. intros log [H1 H2]. split; [rewrite received_app; cbn; now rewrite app_nil_r|].
        intros H. apply in_app_iff in H as [H|[H|[]]]; [auto|discriminate]. }
      destruct (_ =? 0) eqn:Er; [discriminate|]. intros [= <- <-].
      match goal with |- context [cn_amount c ?m] => pose proof (@amount_bounds _ c m) as HA; set (a := cn_amount c m) in * end.
      apply Nat.eqb_neq in Er. split.
      + exists (firstn a (d :: data)). cbn -[firstn length]. splits; auto.
        * intros ->. apply orb_true_l.
        * intros ->. right. apply orb_true_r.
        * intros H1 H2. rewrite H2 in *. rewrite app_length, firstn_length. cbn [length] in *. lia.
      + intros log [H1 H2]. split; cbn -[firstn].
        * rewrite received_app, H1. f_equal. unfold received. cbn -[firstn]. symmetry. apply app_nil_r.
        * intros H. apply in_app_iff in H as [H|[H|[]]]; [auto|discriminate].
    - intros c H. unfold conn_write_now in H. destruct data as [|d data]; [discriminate|]. destruct (_ =? 0) eqn:Er; [|discriminate].
      apply Nat.eqb_eq in Er. destruct (cn_closed c) eqn:Ec; [discriminate|]. split; [exact Ec|]. cbn. split; [lia|reflexivity].
    - intros c c' r [= <- <-]. split; [apply G_s_refl|]. intros log [H1 H2]. split; [rewrite received_app; cbn; now rewrite app_nil_r|].
      intros H. apply in_app_iff in H as [H|[H|[]]]; [auto|discriminate].
    - intros c c' r [= <- <-]. split.
      + exists []. cbn. rewrite !app_nil_r. splits; auto; try discriminate; [now intros ->|]. intros ->. right. apply orb_true_r.
      + intros log [H1 H2]. split; cbn; [rewrite received_app; cbn; now rewrite app_nil_r|auto].
  Qed.
End Sender.
End Ends.

(** ** The log of a sender grows *)
Lemma prefix_refl : forall T (xs : list T), prefix xs xs.
Proof. intros T xs. exists []. symmetry. apply app_nil_r. Qed.
Lemma prefix_trans : forall T (xs ys zs : list T), prefix xs ys -> prefix ys zs -> prefix xs zs.
Proof. intros T xs ys zs (a & ->) (b & ->). exists (a ++ b). symmetry. apply app_assoc. Qed.

Definition same_env {P} (_ : unit) (p : P) : P := p.
Definition log_view {S T} : view (list (wcall T)) unit (S * list (wcall T)) (S * list (wcall T)) :=
  mk_view (fun _ s1 s2 => s1 = s2) snd (fun p s => (fst s, p)).
Notation grows v f := (forall n, corr (@same_env (list (wcall _))) (@prefix (wcall _)) (fun _ => True) n v eq f f).

Lemma log_grows : forall S T X (f : fut S X) (call : X -> wcall T), grows log_view (a_log f call).
Proof.
  intros S T X f call n. revert f. induction n as [|n IH]; intros f; [exact Logic.I|]. intros sc [s log] s2 E. cbn in E. subst s2.
  unfold a_log. rewrite poll_await. unfold on_fst. rewrite poll_within. cbn [fst]. destruct (poll f s) as [[s' [x|w k]]| |]; try reflexivity.
  - cbn. split; [eexists; reflexivity|]. eexists _, _. split; [reflexivity|]. auto.
  - cbn. split; [apply prefix_refl|]. split; [exact Logic.I|]. intros c sc' ->. eexists _, _. split; [reflexivity|]. split; [reflexivity|]. apply IH.
Qed.

Section Grows.
  Context {S2 T : Type} (v : view (list (wcall T)) unit S2 S2) (Hv : forall sc s, v_rel v sc s s).

  Lemma grows_poll : forall X (f : fut S2 X) s s' w k, grows v f -> poll f s = Ret (s', Pending w k) -> grows v k.
  Proof.
    intros X f s s' w k H E n. specialize (H (Datatypes.S n) [tt] s s (Hv _ _)). rewrite E in H. destruct H as (_ & _ & H).
    destruct (H tt [] eq_refl) as (s2' & k2 & [= <- <-] & _ & HC). exact HC.
  Qed.

  Lemma grows_run : forall X (f : fut S2 X) s s' x, grows v f -> run f s = Ret (s', x) -> prefix (v_end v s) (v_end v s').
  Proof.
    intros X. fix IH 1. intros f s s' x H E. pose proof (H 1 [] s s (Hv _ _)) as H1. rewrite run_poll in E. destruct f as [p]. cbn [poll] in *.
    destruct (p s) as [[s1 [y|w k]]| |] eqn:Ep; try discriminate.
    - injection E as <- <-. apply H1.
    - destruct H1 as (HG & _). eapply prefix_trans; [exact HG|]. apply (IH k s1 s' x); [|exact E]. eapply grows_poll; [exact H|]. exact Ep.
  Qed.
End Grows.

(** How often a task gets its turn. *)
Fixpoint turns (t : turn) (schedule : list turn) : nat :=
  match schedule with
  | [] => 0
  | t' :: schedule => match t, t' with Receive, Receive | Send, Send => Datatypes.S (turns t schedule) | _, _ => turns t schedule end
  end.
Lemma turns_le : forall t schedule, turns t schedule <= length schedule.
Proof. intros t. induction schedule as [|t' schedule IH]; cbn; [lia|]. destruct t, t'; lia. Qed.

(** ** The tasks, between two polls *)
Section Joint.
  Context {T : Type} (x0 : T).
  Context (capacity : nat) (Hcap : 1 <= capacity) (input : list T).
  Context {SR SR2 SS SS2 : Type}.
  Context (hr : holds T SR) (vr : view (conn T) (conn T) SR SR2).
  Context (Hr_set : forall c s, h_set hr c s = v_set vr c s) (Hr_conn : forall s, h_conn hr s = v_end vr s)
    (Hr_end : forall c s, v_end vr (v_set vr c s) = c).
  Context (hs : holds T SS) (vs : view (conn T) (conn T) SS SS2) (vg : view (list (wcall T)) unit SS2 SS2).
  Context (Hs_set : forall c s, h_set hs c s = v_set vs c s) (Hs_conn : forall s, h_conn hs s = v_end vs s)
    (Hs_end : forall c s, v_end vs (v_set vs c s) = c)
    (Hs_rel : forall sc s1 s2, v_rel vs sc s1 s2 -> send_rel (v_end vs s1) (v_end vg s2)) (Hvg : forall sc s, v_rel vg sc s s).

  Definition good_s (n : nat) (k1 : fut SS unit) (s1 : SS) : Prop := forall e sc, exists s2 k2 s2',
    v_rel vs sc (v_set vs (env_but_sent e (v_end vs s1)) s1) s2 /\ corr env_but_sent (G_s capacity) (B_s capacity) n vs eq k1 k2 /\ grows vg k2 /\
    run k2 s2 = Ret (s2', tt) /\ received (v_end vg s2') = input /\ In (WClose (Ok tt)) (v_end vg s2').

  Definition good_r (n : nat) (k1 : fut SR unit) (s1 : SR) (h : list T) : Prop := forall c sc, exists s2 k2,
    v_rel vr sc (v_set vr c s1) s2 /\ corr env_all G_r B_r n vr eq k1 k2 /\
    ((exists s2', run k2 s2 = Ret (s2', tt)) <-> h ++ stream c sc = input).

  Lemma send_poll : forall n f s c, good_s (Datatypes.S n) f s -> cn_closed c = cn_closed (v_end vs s) -> cn_sent c = cn_sent (v_end vs s) ->
    match poll f (v_set vs c s) with
    | Ret (s', Ready _) => G_s capacity c (v_end vs s') /\ cn_closed (v_end vs s') = true /\ cn_sent (v_end vs s') = input
    | Ret (s', Pending _ k) => G_s capacity c (v_end vs s') /\ B_s capacity (v_end vs s') /\ good_s n k s' /\ prefix (cn_sent (v_end vs s')) input
    | _ => False
    end.
  Proof.
    intros n f s c H Hc Hs.
    assert (Ec : env_but_sent c (v_end vs s) = c) by (unfold env_but_sent; rewrite <- Hc, <- Hs; now destruct c).
    assert (H0 := fun sc => H c sc). rewrite Ec in H0. clear H.
    destruct (poll f (v_set vs c s)) as [[s' [x|w k]]| |] eqn:Ep.
    - destruct (H0 []) as (s2 & k2 & s2' & HR & HC & HG & HE & H1 & H2). specialize (HC _ _ _ HR). rewrite Ep, Hs_end in HC.
      destruct HC as (G1 & s3 & y & E2 & _ & HR'). rewrite run_poll, E2 in HE. injection HE as -> ->. apply Hs_rel in HR' as [A1 A2].
      split; [exact G1|]. split; [auto|congruence].
    - assert (HK : forall e sc, G_s capacity c (v_end vs s') /\ B_s capacity (v_end vs s') /\ prefix (cn_sent (v_end vs s')) input /\
        exists s2 k2 s2', v_rel vs sc (v_set vs (env_but_sent e (v_end vs s')) s') s2 /\ corr env_but_sent (G_s capacity) (B_s capacity) n vs eq k k2 /\ grows vg k2 /\
          run k2 s2 = Ret (s2', tt) /\ received (v_end vg s2') = input /\ In (WClose (Ok tt)) (v_end vg s2')).
      { intros e sc. destruct (H0 (e :: sc)) as (s2 & k2 & s2' & HR & HC & HG & HE & H1 & H2). specialize (HC _ _ _ HR). rewrite Ep, Hs_end in HC.
        destruct HC as (G1 & B1 & HC). destruct (HC e sc eq_refl) as (s3 & k3 & E2 & HR' & HC'). rewrite run_poll, E2 in HE.
        pose proof (@grows_poll _ _ vg Hvg _ _ _ _ _ _ HG E2) as HG'.
        split; [exact G1|]. split; [exact B1|]. split; [|exists s3, k3, s2'; auto 8].
        destruct (@grows_run _ _ vg Hvg _ _ _ _ _ HG' HE) as (more & EM). destruct (Hs_rel _ _ _ HR') as [A1 _]. rewrite Hs_end in A1. cbn [env_but_sent cn_sent] in A1.
        rewrite A1, <- H1, EM, received_app. eexists. reflexivity. }
      destruct (HK c []) as (G1 & B1 & P1 & _). split; [exact G1|]. split; [exact B1|]. split; [|exact P1].
      intros e sc. now destruct (HK e sc) as (_ & _ & _ & HX).
    - destruct (H0 []) as (s2 & k2 & s2' & HR & HC & _ & HE & _). specialize (HC _ _ _ HR). rewrite Ep in HC. now rewrite run_poll, HC in HE.
    - destruct (H0 []) as (s2 & k2 & s2' & HR & HC & _ & HE & _). specialize (HC _ _ _ HR). rewrite Ep in HC. now rewrite run_poll, HC in HE.
  Qed.

  Lemma receive_poll : forall n f s h c, good_r (Datatypes.S n) f s h -> prefix (h ++ cn_buf c) input -> (cn_closed c = true -> h ++ cn_buf c = input) ->
    match poll f (v_set vr c s) with
    | Ret (s', Ready _) => G_r c (v_end vr s') /\ cn_closed c = true
    | Ret (s', Pending _ k) => G_r c (v_end vr s') /\ B_r (v_end vr s') /\ good_r n k s' (h ++ cn_buf c)
    | _ => False
    end.
  Proof.
    intros n f s h c H (more & HP) Hcl. pose proof (H c) as H0. clear H.
    assert (HO : exists sc, h ++ stream c sc = input).
    { destruct (cn_closed c) eqn:Ec.
      - exists []. rewrite stream_step, Ec, app_nil_r. auto.
      - exists [mk_conn more true [] [] false false false]. rewrite stream_step, Ec, stream_step. cbn. rewrite app_nil_r, app_assoc. auto. }
    assert (HN : poll f (v_set vr c s) <> Panic /\ poll f (v_set vr c s) <> NoFuel).
    { destruct HO as (sc & HO). destruct (H0 sc) as (s2 & k2 & HR & HC & HI). destruct (proj2 HI HO) as (s2' & HE). specialize (HC _ _ _ HR).
      split; intros Ep; rewrite Ep in HC; rewrite run_poll, HC in HE; discriminate. }
    destruct (poll f (v_set vr c s)) as [[s' [x|w k]]| |] eqn:Ep; try (destruct HN; congruence).
    - assert (HA : forall sc, G_r c (v_end vr s') /\ h ++ stream c sc = input).
      { intros sc. destruct (H0 sc) as (s2 & k2 & HR & HC & HI). specialize (HC _ _ _ HR). rewrite Ep, Hr_end in HC.
        destruct HC as (G1 & s3 & [] & E2 & _). split; [exact G1|]. apply HI. exists s3. now rewrite run_poll, E2. }
      split; [apply (HA [])|]. destruct (cn_closed c) eqn:Ec; [reflexivity|].
      destruct (HA []) as [_ H1]. destruct (HA [mk_conn [x0] true [] [] false false false]) as [_ H2]. rewrite <- H1 in H2.
      rewrite !stream_step, Ec in H2. cbn in H2. rewrite !app_nil_r in H2. apply app_inv_head in H2. apply (f_equal (@length T)) in H2. rewrite app_length in H2. cbn in H2. lia.
    - assert (HA : forall e sc, G_r c (v_end vr s') /\ B_r (v_end vr s') /\ exists s2 k2,
        v_rel vr sc (v_set vr e s') s2 /\ corr env_all G_r B_r n vr eq k k2 /\
        ((exists s2', run k2 s2 = Ret (s2', tt)) <-> (h ++ cn_buf c) ++ stream e sc = input)).
      { intros e sc. destruct (H0 (e :: sc)) as (s2 & k2 & HR & HC & HI). specialize (HC _ _ _ HR). rewrite Ep, Hr_end in HC.
        destruct HC as (G1 & B1 & HC). destruct (HC e sc eq_refl) as (s3 & k3 & E2 & HR' & HC').
        split; [exact G1|]. split; [exact B1|]. exists s3, k3. split; [exact HR'|]. split; [exact HC'|].
        rewrite run_poll, E2, stream_step in HI. destruct G1 as (_ & G1 & _), B1 as (_ & B1 & _). rewrite B1 in G1. rewrite <- G1 in HI. now rewrite <- app_assoc. }
      destruct (HA c []) as (G1 & B1 & _). split; [exact G1|]. split; [exact B1|]. intros e sc. now destruct (HA e sc) as (_ & _ & HX).
  Qed.

  (** ** Both tasks *)
  Definition J (nr ns : nat) (j : joint T SR SS) : Prop :=
    let c := j_conn j in
    (cn_closed c = false -> length (cn_buf c) <= capacity) /\ prefix (cn_sent c) input /\
    match j_send j with
    | Running f s => good_s ns f s /\ cn_closed c = cn_closed (v_end vs s) /\ cn_sent c = cn_sent (v_end vs s) /\ cn_closed c = false
    | Done => cn_closed c = true /\ cn_sent c = input
    end /\
    match j_receive j with
    | Running f s => exists h, good_r nr f s h /\ cn_sent c = h ++ cn_buf c
    | Done => cn_closed c = true
    end.

  Lemma J_receive : forall nr ns j, J (Datatypes.S nr) ns j -> exists j', poll_receive hr j = Ret j' /\ J nr ns j' /\
    j_send j' = j_send j /\ cn_sent (j_conn j') = cn_sent (j_conn j) /\ (j_receive j' = Done \/ B_r (j_conn j')) /\ G_r (j_conn j) (j_conn j').
  Proof.
    intros nr ns [c t ts] (Hl & HP & HS & HR). cbn [j_conn j_send j_receive] in *. unfold poll_receive. cbn [j_conn j_send j_receive].
    destruct t as [f s|]; cbn [poll_task bind].
    - destruct HR as (h & HG & Es). rewrite Hr_set.
      pose proof (@receive_poll nr f s h c HG) as H. rewrite <- Es in H. specialize (H HP).
      assert (H1 : cn_closed c = true -> cn_sent c = input).
      { intros Hc. destruct ts; [|apply HS]. destruct HS as (_ & _ & _ & HS). congruence. }
      specialize (H H1). destruct (poll f (v_set vr c s)) as [[s' [[]|w k]]| |]; try contradiction; cbn [bind]; rewrite Hr_conn.
      + destruct H as (HGr & Hc). pose proof HGr as ((k & G1) & G2 & G3 & _). eexists. split; [reflexivity|]. split; [|cbn; auto].
        split; cbn [j_conn j_send j_receive]; [congruence|]. rewrite G2, G3. auto.
      + destruct H as (HGr & HB & HG'). pose proof HGr as ((m & G1) & G2 & G3 & _). eexists. split; [reflexivity|]. split; [|cbn; auto].
        split; cbn [j_conn j_send j_receive]; [rewrite (proj1 HB); cbn; lia|]. rewrite G2, G3. split; [exact HP|]. split; [exact HS|].
        eexists. split; [exact HG'|]. rewrite (proj1 HB). symmetry. apply app_nil_r.
    - eexists. split; [reflexivity|]. split; [split; cbn; auto|cbn]. splits; auto. apply G_r_refl.
  Qed.

  Lemma J_send : forall nr ns j, J nr (Datatypes.S ns) j -> exists j', poll_send hs j = Ret j' /\ J nr ns j' /\
    j_receive j' = j_receive j /\ G_s capacity (j_conn j) (j_conn j') /\ (j_send j' = Done \/ B_s capacity (j_conn j')) /\ (j_send j = Done -> j' = j).
  Proof.
    intros nr ns [c tr t] (Hl & HP & HS & HR). cbn [j_conn j_send j_receive] in *. unfold poll_send. cbn [j_conn j_send j_receive].
    destruct t as [f s|]; cbn [poll_task bind].
    - destruct HS as (HG & E1 & E2 & E3). rewrite Hs_set. pose proof (@send_poll ns f s c HG E1 E2) as H.
      destruct (poll f (v_set vs c s)) as [[s' [[]|w k]]| |]; try contradiction; cbn [bind]; rewrite Hs_conn; eexists; (split; [reflexivity|]).
      + destruct H as (HGs & Hc & Hi). pose proof HGs as (new & A1 & A2 & A3 & A4 & A5 & A6).
        split; [|cbn; splits; auto; discriminate].
        split; cbn [j_conn j_send j_receive]; [congruence|]. split; [rewrite Hi; apply prefix_refl|]. split; [auto|].
        destruct tr as [f2 s2|]; [|auto]. destruct HR as (h & HR & E). exists h. split; [exact HR|]. now rewrite A1, A2, E, app_assoc.
      + destruct H as (HGs & HB & HG' & HP'). pose proof HGs as (new & A1 & A2 & A3 & A4 & A5 & A6).
        split; [|cbn; splits; auto; discriminate].
        split; cbn [j_conn j_send j_receive]; [auto|]. split; [exact HP'|]. split; [split; [exact HG'|]; split; [reflexivity|]; split; [reflexivity|apply HB]|].
        destruct tr as [f2 s2|]; [|congruence]. destruct HR as (h & HR & E). exists h. split; [exact HR|]. now rewrite A1, A2, E, app_assoc.
    - eexists. split; [reflexivity|]. split; [split; cbn; auto|]. cbn. splits; auto. apply G_s_refl.
  Qed.

  Lemma good_s_mono : forall n m f s, m <= n -> good_s n f s -> good_s m f s.
  Proof.
    intros n m f s Hm H e sc. destruct (H e sc) as (s2 & k2 & s2' & A1 & A2 & A3). exists s2, k2, s2'. split; [exact A1|]. split; [|exact A3].
    eapply corr_mono; eauto.
  Qed.
  Lemma good_r_mono : forall n m f s h, m <= n -> good_r n f s h -> good_r m f s h.
  Proof.
    intros n m f s h Hm H c sc. destruct (H c sc) as (s2 & k2 & A1 & A2 & A3). exists s2, k2. split; [exact A1|]. split; [|exact A3].
    eapply corr_mono; eauto.
  Qed.

  (** *** Any schedule *)
  Lemma J_exec : forall schedule nr ns j, turns Receive schedule <= nr -> turns Send schedule <= ns -> J nr ns j ->
    exists j' nr' ns', exec hr hs schedule j = Ret j' /\ J nr' ns' j'.
  Proof.
    induction schedule as [|[] schedule IH]; intros nr ns j H1 H2 HJ; cbn [exec turns] in *.
    - exists j, nr, ns. auto.
    - destruct nr as [|nr]; [lia|]. destruct (J_receive HJ) as (j' & E & HJ' & _). rewrite E. cbn [bind]. eapply IH; [| |exact HJ']; lia.
    - destruct ns as [|ns]; [lia|]. destruct (J_send HJ) as (j' & E & HJ' & _). rewrite E. cbn [bind]. eapply IH; [| |exact HJ']; lia.
  Qed.

  (** *** They finish *)
  Definition todo (j : joint T SR SS) : nat :=
    match j_send j with
    | Done => match j_receive j with Done => 0 | Running _ _ => 1 end
    | Running _ _ => length input - length (cn_sent (j_conn j)) + 2
    end.
  Definition idle (half : bool) (j : joint T SR SS) : Prop :=
    half = true -> j_receive j = Done \/ (cn_buf (j_conn j) = [] /\ cn_closed (j_conn j) = false).

  Lemma todo_receive : forall nr ns j j', J (Datatypes.S nr) ns j -> poll_receive hr j = Ret j' -> todo j' <= todo j /\ (j_send j = Done -> todo j' = 0).
  Proof.
    intros nr ns j j' HJ E. destruct (J_receive HJ) as (j1 & E1 & HJ' & E2 & E3 & E4 & _). rewrite E in E1. injection E1 as <-.
    unfold todo. rewrite E2, E3. destruct (j_send j) eqn:Es.
    - split; [lia|discriminate].
    - destruct E4 as [E4|E4]; [rewrite E4; split; [lia|auto]|]. destruct HJ' as (_ & _ & HS & _). rewrite E2 in HS. destruct HS as [HS _].
      destruct E4 as (_ & E4 & _). congruence.
  Qed.

  Lemma todo_send : forall nr ns j j', J nr (Datatypes.S ns) j -> poll_send hs j = Ret j' ->
    todo j' <= todo j /\ (idle true j -> todo j' <= todo j - 1).
  Proof.
    intros nr ns j j' HJ E. destruct (J_send HJ) as (j1 & E1 & HJ' & E2 & HG & E4 & E5). rewrite E in E1. injection E1 as <-.
    destruct (j_send j) as [f s|] eqn:Es.
    - assert (Hl : length (cn_sent (j_conn j')) <= length input).
      { destruct HJ' as (_ & (more & EM) & _). rewrite EM, app_length. lia. }
      destruct HG as (new & A1 & A2 & _). rewrite A1, app_length in Hl. unfold todo. rewrite Es.
      destruct (j_send j') as [f' s'|] eqn:Es'.
      + rewrite A1, app_length. split; [lia|]. intros HI. destruct E4 as [E4|(B1 & B2 & _)]; [discriminate|].
        assert (Hb : cn_buf (j_conn j) = []).
        { destruct (HI eq_refl) as [HI'|[HI' _]]; [|exact HI']. destruct HJ as (_ & _ & HS & HR). rewrite HI' in HR. rewrite Es in HS.
          destruct HS as (_ & _ & _ & HS). congruence. }
        rewrite A2, Hb in B2. cbn in B2. lia.
      + split; [destruct (j_receive j'); lia|]. intros _. destruct (j_receive j'); lia.
    - rewrite (E5 eq_refl). split; [lia|]. intros HI. unfold todo. rewrite Es. destruct (j_receive j) eqn:Er; [|lia].
      destruct (HI eq_refl) as [HI'|[_ HI']]; [congruence|]. destruct HJ as (_ & _ & HS & _). rewrite Es in HS. destruct HS as [HS _]. congruence.
  Qed.

  Lemma todo_done : forall j, todo j = 0 -> both_done j = true.
  Proof. intros j. unfold todo, both_done. destruct (j_send j); [lia|]. destruct (j_receive j); [discriminate|reflexivity]. Qed.

  Lemma todo_exec : forall schedule half nr ns j j', turns Receive schedule <= nr -> turns Send schedule <= ns -> J nr ns j -> idle half j ->
    todo j <= rounds half schedule -> exec hr hs schedule j = Ret j' -> both_done j' = true.
  Proof.
    induction schedule as [|[] schedule IH]; intros half nr ns j j' H1 H2 HJ HI Ht E; cbn [exec turns rounds] in *.
    - injection E as <-. apply todo_done. lia.
    - destruct nr as [|nr]; [lia|]. destruct (J_receive HJ) as (j1 & E1 & HJ' & E2 & E3 & E4 & _). rewrite E1 in E. cbn [bind] in E.
      destruct (todo_receive HJ E1) as [T1 _]. eapply (IH true); [| |exact HJ'| | |exact E]; try lia.
      intros _. destruct E4 as [E4|(E4 & E4' & _)]; auto.
    - destruct ns as [|ns]; [lia|]. destruct (J_send HJ) as (j1 & E1 & HJ' & _). rewrite E1 in E. cbn [bind] in E.
      destruct (todo_send HJ E1) as [T1 T2]. eapply (IH false); [| |exact HJ'| | |exact E]; try lia; [intros HF; discriminate|].
      destruct half; [specialize (T2 HI)|]; lia.
  Qed.

  (** *** [block_on] finishes: no wake-up is lost *)
  Lemma J_reset : forall nr ns j, J nr ns j -> J nr ns (mk_joint (reset_woken (j_conn j)) (j_receive j) (j_send j)).
  Proof. intros nr ns j H. exact H. Qed.

  Lemma J_join : forall nr ns j, J (Datatypes.S nr) (Datatypes.S ns) j -> exists j', poll_join hr hs j = Ret j' /\ J nr ns j' /\ todo j' <= todo j - 1 /\
    (both_done j' = true \/ cn_woken (j_conn j') = true).
  Proof.
    intros nr ns j HJ. destruct (J_receive HJ) as (j1 & E1 & HJ1 & E2 & E3 & E4 & _). destruct (J_send HJ1) as (j2 & F1 & HJ2 & F2 & HG & F4 & F5).
    exists j2. unfold poll_join. rewrite E1. cbn [bind]. split; [exact F1|]. split; [exact HJ2|].
    assert (HI : idle true j1) by (intros _; destruct E4 as [E4|(E4 & E4' & _)]; auto).
    destruct (todo_receive HJ E1) as [T1 _]. destruct (todo_send HJ1 F1) as [_ T2]. specialize (T2 HI). split; [lia|].
    destruct (j_receive j2) eqn:Er.
    - destruct E4 as [E4|(B1 & B2 & B3)]; [congruence|]. right.
      destruct HG as (new & A1 & A2 & A3 & A4 & A5 & A6). destruct (A5 B3) as [(A7 & A8 & _)|A7]; [|exact A7]. exfalso.
      rewrite B2 in A8. subst new. rewrite B1 in A2. destruct F4 as [F4|(_ & F4 & _)].
      + destruct HJ2 as (_ & _ & HS & _). rewrite F4 in HS. destruct HS. congruence.
      + rewrite A2 in F4. cbn in F4. lia.
    - left. unfold both_done. rewrite Er. destruct HJ2 as (_ & _ & HS & HR). rewrite Er in HR. destruct (j_send j2); [|reflexivity].
      destruct HS as (_ & _ & _ & HS). congruence.
  Qed.

  Lemma J_block_on : forall fuel n j, 1 <= fuel -> todo j <= fuel -> fuel <= n -> J n n j ->
    exists j', block_on_join hr hs fuel j = Ret j' /\ both_done j' = true /\ exists n', J n' n' j'.
  Proof.
    induction fuel as [|fuel IH]; intros n j Hf Ht Hn HJ; [lia|]. cbn [block_on_join]. destruct n as [|n]; [lia|].
    destruct (J_join (J_reset HJ)) as (j1 & E1 & HJ1 & T1 & HW). rewrite E1. cbn [bind]. change (todo _) with (todo j) in T1 at 2.
    destruct (both_done j1) eqn:Ed; [eauto|]. destruct HW as [HW|HW]; [congruence|]. rewrite HW. apply (IH n); auto; try lia.
    destruct fuel; [|lia]. assert (todo j1 = 0) by lia. apply todo_done in H. congruence.
  Qed.

  (** *** Spawned separately *)

  (** A task that is not ready waits, and is going to be woken. *)
  Definition waits (ready_r ready_s : bool) (j : joint T SR SS) : Prop :=
    (ready_r = false -> j_receive j = Done \/ B_r (j_conn j)) /\ (ready_s = false -> j_send j = Done \/ B_s capacity (j_conn j)).

  Lemma waits_stuck : forall nr ns j, J nr ns j -> waits false false j -> both_done j = true.
  Proof.
    intros nr ns j HJ [HR HS]. specialize (HR eq_refl). specialize (HS eq_refl). destruct HJ as (_ & _ & JS & JR). unfold both_done.
    destruct (j_receive j) as [fr sr|] eqn:Er.
    - exfalso. destruct HR as [HR|(R1 & R2 & R3)]; [discriminate|]. destruct HS as [HS|(S1 & S2 & S3)].
      + rewrite HS in JS. destruct JS. congruence.
      + rewrite R1 in S2. cbn in S2. lia.
    - destruct (j_send j) as [fs ss|] eqn:Es; [|reflexivity]. destruct JS as (_ & _ & _ & JS). congruence.
  Qed.

  Lemma waits_receive : forall nr ns ready_r ready_s j j', J (Datatypes.S nr) ns j -> waits ready_r ready_s j ->
    poll_receive hr (mk_joint (reset_woken (j_conn j)) (j_receive j) (j_send j)) = Ret j' -> waits false (ready_s || cn_woken (j_conn j')) j'.
  Proof.
    intros nr ns rr rs j j' HJ [HR HS] E. destruct (J_receive (J_reset HJ)) as (j1 & E1 & HJ' & E2 & E3 & E4 & HG). rewrite E in E1. injection E1 as <-.
    split; [intros _; exact E4|]. intros Hrs. apply orb_false_iff in Hrs as [-> Hw]. cbn [j_send j_conn] in *. rewrite E2.
    destruct (HS eq_refl) as [HD|(S1 & S2 & S3)]; [now left|]. right. destruct HG as (_ & G2 & _ & _ & G5). cbn [reset_woken cn_closed cn_writing cn_buf] in *.
    destruct (G5 S3) as [[A1 A2]|A]; [|congruence]. split; [congruence|]. split; [now rewrite A1|exact A2].
  Qed.

  Lemma waits_send : forall nr ns ready_r ready_s j j', J nr (Datatypes.S ns) j -> waits ready_r ready_s j ->
    poll_send hs (mk_joint (reset_woken (j_conn j)) (j_receive j) (j_send j)) = Ret j' -> waits (ready_r || cn_woken (j_conn j')) false j'.
  Proof.
    intros nr ns rr rs j j' HJ [HR HS] E. destruct (J_send (J_reset HJ)) as (j1 & E1 & HJ' & E2 & HG & E4 & _). rewrite E in E1. injection E1 as <-.
    split; [|intros _; exact E4]. intros Hrr. apply orb_false_iff in Hrr as [-> Hw]. cbn [j_receive j_conn] in *. rewrite E2.
    destruct (HR eq_refl) as [HD|(S1 & S2 & S3)]; [now left|]. right. destruct HG as (new & _ & G2 & _ & _ & G5 & _). cbn [reset_woken cn_closed cn_reading cn_buf] in *.
    destruct (G5 S3) as [(-> & A2 & A3)|A]; [|congruence]. split; [now rewrite G2, S1|]. split; [congruence|exact A3].
  Qed.

  Lemma J_spawned : forall prefer half ready_r ready_s nr ns j, length prefer <= nr -> length prefer <= ns -> J nr ns j -> waits ready_r ready_s j ->
    idle half j -> (half = true -> ready_r = false) ->
    2 * todo j + (if half then 0 else if ready_s then 1 else 0) <= length prefer + (if half then 1 else 0) ->
    exists j' ready nr' ns', spawned hr hs prefer ready_r ready_s j = Ret (j', ready) /\ both_done j' = true /\ J nr' ns' j'.
  Proof.
    induction prefer as [|t prefer IH]; intros half rr rs nr ns j Hnr Hns HJ HW HI Hh Ht; cbn [spawned length] in *.
    - exists j, (rr, rs), nr, ns. split; [reflexivity|]. split; [|exact HJ]. apply todo_done. destruct half, rs; lia.
    - destruct nr as [|nr]; [lia|]. destruct ns as [|ns]; [lia|].
      destruct (match t with Receive => rr | Send => rr && negb rs end) eqn:Et.
      + assert (Hrr : rr = true) by (destruct t; [exact Et|apply andb_true_iff in Et; apply Et]).
        destruct (J_receive (J_reset HJ)) as (j1 & E1 & HJ1 & _ & _ & E4 & _). rewrite E1. cbn [bind].
        assert (HI1 : idle true j1) by (intros _; destruct E4 as [E4|(E4 & E4' & _)]; auto).
        destruct (todo_receive (J_reset HJ) E1) as [T1 _]. change (todo (mk_joint _ _ _)) with (todo j) in T1.
        assert (half = false) as -> by (destruct half; [|reflexivity]; rewrite Hh in Hrr by reflexivity; discriminate).
        destruct (IH true false (rs || cn_woken (j_conn j1)) nr (Datatypes.S ns) j1) as (j' & ready & nr' & ns' & H1 & H2 & H3); try lia; auto.
        * exact (waits_receive HJ HW E1).
        * exists j', ready, nr', ns'. auto.
      + destruct rs.
        * destruct (J_send (J_reset HJ)) as (j1 & E1 & HJ1 & _). rewrite E1. cbn [bind].
          destruct (todo_send (J_reset HJ) E1) as [T1 T2]. change (todo (mk_joint _ _ _)) with (todo j) in T1, T2.
          destruct (IH false (rr || cn_woken (j_conn j1)) false (Datatypes.S nr) ns j1) as (j' & ready & nr' & ns' & H1 & H2 & H3); try lia; auto.
          -- exact (waits_send HJ HW E1).
          -- intros HF; discriminate.
          -- destruct half; [|lia]. assert (T3 : todo j1 <= todo j - 1) by (apply T2; exact HI). lia.
          -- exists j', ready, nr', ns'. auto.
        * assert (rr = false) as -> by (destruct t; [exact Et|now rewrite andb_true_r in Et]).
          exists j, (false, false), (Datatypes.S nr), (Datatypes.S ns). split; [reflexivity|]. split; [|exact HJ]. exact (waits_stuck HJ HW).
  Qed.

  (** *** From the beginning *)
  Section Start.
    Context (wait : nat) (receive : task SR) (send : task SS).
    Context (Hr : match receive with Running f s => good_r wait f s [] | Done => False end).
    Context (Hs : match send with Running f s => good_s wait f s /\ cn_closed (v_end vs s) = false /\ cn_sent (v_end vs s) = [] | Done => False end).
    Let start limits : joint T SR SS := mk_joint (conn_new limits) receive send.

    Lemma start_J : forall limits, J wait wait (start limits).
    Proof.
      intros limits. unfold start, J. cbn [j_conn j_send j_receive].
      split; [cbn; lia|]. split; [exists input; reflexivity|]. split.
      - destruct send as [f s|]; [|contradiction]. destruct Hs as (HS & E1 & E2). rewrite E1, E2. auto.
      - destruct receive as [f s|]; [|contradiction]. exists []. auto.
    Qed.

    Lemma start_todo : forall limits, todo (start limits) = length input + 2.
    Proof. intros limits. unfold todo, start. cbn [j_send j_conn conn_new cn_sent length]. destruct send; [lia|contradiction]. Qed.

    Lemma J_outcome : forall nr ns j, J nr ns j -> sound_joint capacity input j.
    Proof.
      intros nr ns j (H1 & H2 & H3 & H4). split; [exact H2|]. split; [exact H1|]. split.
      - intros E. rewrite E in H3. destruct H3. auto.
      - intros E. rewrite E in H4. destruct (j_send j); [|reflexivity]. destruct H3 as (_ & _ & _ & H3). congruence.
    Qed.

    Lemma runs_safely : forall limits schedule, length schedule <= wait ->
      exists j, exec hr hs schedule (start limits) = Ret j /\ sound_joint capacity input j /\ (length input + 2 <= rounds false schedule -> both_done j = true).
    Proof.
      intros limits schedule Hl. pose proof (turns_le Receive schedule) as H1. pose proof (turns_le Send schedule) as H2.
      destruct (@J_exec schedule wait wait (start limits)) as (j & nr & ns & E & HJ); [lia|lia|apply start_J|].
      exists j. split; [exact E|]. split; [exact (J_outcome HJ)|]. intros HR.
      apply (@todo_exec schedule false wait wait (start limits) j); [lia|lia|apply start_J|intros HF; discriminate HF| |exact E].
      rewrite start_todo. exact HR.
    Qed.

    Lemma blocks_until_done : forall limits polls, length input + 2 <= polls <= wait ->
      exists j, block_on_join hr hs polls (start limits) = Ret j /\ both_done j = true /\ sound_joint capacity input j.
    Proof.
      intros limits polls Hl.
      destruct (@J_block_on polls wait (start limits)) as (j & E & HD & n' & HJ); [lia|rewrite start_todo; lia|lia|apply start_J|].
      exists j. split; [exact E|]. split; [exact HD|]. exact (J_outcome HJ).
    Qed.

    Lemma spawned_until_done : forall limits prefer, 2 * length input + 5 <= length prefer <= wait ->
      exists j ready, spawned hr hs prefer true true (start limits) = Ret (j, ready) /\ both_done j = true /\ sound_joint capacity input j.
    Proof.
      intros limits prefer Hl.
      destruct (@J_spawned prefer false true true wait wait (start limits))
        as (j & ready & nr & ns & E & HD & HJ); try lia; [apply start_J|split; intros HF; discriminate HF|intros HF; discriminate HF|rewrite start_todo; lia|].
      exists j, ready. split; [exact E|]. split; [exact HD|]. exact (J_outcome HJ).
    Qed.
  End Start.
End Joint.

(** ** The targets *)
Section Targets.
  Context (dbg : bool) (fuel wait capacity : nat) (Hcap : 1 <= capacity) (input : list nat).
  Context (Hroom : dbg = true -> length input <= scrambler_capacity).

  Definition sender_view := cscr_view (T := nat) (writer_view (Q := fixed nat) (@send_view nat)).
  Definition sender_log_view := cscr_view (T := nat) (writer_view (Q := fixed nat) (@log_view (conn nat * list (conn nat)) nat)).
  Definition receiver_view := pscr_view (T := nat) (F := unit) (E := io_error) (reader_view (Q := fixed nat) (@recv_view nat)).
  Definition buf_receiver_view := pscr_view (T := nat) (F := unit) (E := io_error) (br_view (T := nat) (@recv_view nat)).

  Lemma sender_set : forall c s, h_set sender_holds c s = v_set sender_view c s.
  Proof. reflexivity. Qed.
  Lemma sender_conn : forall s, h_conn sender_holds s = v_end sender_view s.
  Proof. reflexivity. Qed.
  Lemma sender_end : forall c s, v_end sender_view (v_set sender_view c s) = c.
  Proof. reflexivity. Qed.
  Lemma sender_rel : forall sc s1 s2, v_rel sender_view sc s1 s2 -> send_rel (v_end sender_view s1) (v_end sender_log_view s2).
  Proof. intros sc s1 s2 (((_ & H) & _) & _). exact H. Qed.
  Lemma sender_log_refl : forall sc s, v_rel sender_log_view sc s s.
  Proof. intros sc s. cbn. auto. Qed.

  Lemma sender_good : forall scap consume_ops, (forall n, In (ScConsumeSlots n) consume_ops -> 1 <= n) ->
    Datatypes.S scrambler_capacity * Datatypes.S (length consume_ops) <= fuel ->
    match compat_send dbg fuel wait capacity input scap consume_ops with
    | Running f s => good_s capacity input sender_view sender_log_view wait f s /\ v_end sender_view s = conn_new []
    | Done => False
    end.
  Proof.
    intros scap ops Hn Hf. cbn [compat_send]. split; [|reflexivity]. intros e sc. set (c1 := env_but_sent e (conn_new [])).
    destruct (@script_sends dbg fuel wait capacity input ops scap Hroom Hn Hf c1 sc) as (s' & E & H1 & (before & H2)).
    exists (compat_sender ((c1, sc), []) (clamp 1 2048 scap) ops), (a_fuzz_send (script_consumer dbg fuel wait capacity) input), s'.
    split; [cbn; unfold send_rel; splits; try reflexivity; intros []|]. split; [|split; [|split; [exact E|split; [exact H1|]]]].
    - apply corr_fuzz_send; [apply G_s_refl|apply G_s_trans|]. apply corr_cscr_consumer; [apply G_s_refl|apply G_s_trans|].
      apply corr_writer_consumer; [apply G_s_refl|apply G_s_trans|]. apply corr_conn_writer. lia.
    - intros n. apply corr_fuzz_send; [apply prefix_refl|apply prefix_trans|]. apply corr_cscr_consumer; [apply prefix_refl|apply prefix_trans|].
      apply corr_writer_consumer; [apply prefix_refl|apply prefix_trans|]. split; [intros buf|split]; apply log_grows.
    - cbn. rewrite H2. apply in_or_app. right. now left.
  Qed.

  Lemma receiver_good : forall rcap produce_ops, (forall n, In (ScConsiderProduced n) produce_ops -> 1 <= n) ->
    Datatypes.S scrambler_capacity * Datatypes.S (length produce_ops) <= fuel ->
    match compat_receive dbg fuel wait input rcap produce_ops with
    | Running f s => good_r input receiver_view wait f s []
    | Done => False
    end.
  Proof.
    intros rcap ops Hp Hf. cbn [compat_receive]. intros c sc.
    eexists (pscr_new_with_capacity 0 (mk_reader_state (c, sc) _) ops scrambler_capacity), _.
    split; [cbn; splits; reflexivity|]. split; [|apply (@script_reader_receives dbg fuel wait input ops Hp Hf)].
    apply corr_fuzz_receive; [apply G_r_refl|apply G_r_trans|]. apply corr_pscr_producer; [apply G_r_refl|apply G_r_trans|].
    apply corr_reader_producer; [apply G_r_refl|apply G_r_trans|]. apply corr_conn_reader. apply le_n.
  Qed.

  Lemma buf_receiver_good : forall cap produce_ops, 1 <= cap -> (forall n, In (ScConsiderProduced n) produce_ops -> 1 <= n) ->
    Datatypes.S scrambler_capacity * Datatypes.S (length produce_ops) <= fuel ->
    match compat_buf_receive dbg fuel wait cap input produce_ops with
    | Running f s => good_r input buf_receiver_view wait f s []
    | Done => False
    end.
  Proof.
    intros cap ops Hc Hp Hf. cbn [compat_buf_receive]. intros c sc.
    eexists (pscr_new_with_capacity 0 (mk_br (c, sc) []) ops scrambler_capacity), _.
    split; [cbn; splits; reflexivity|]. split; [|apply (@script_buf_reader_receives dbg fuel wait input ops Hp Hf _ _ _ Hc)].
    apply corr_fuzz_receive; [apply G_r_refl|apply G_r_trans|]. apply corr_pscr_producer; [apply G_r_refl|apply G_r_trans|].
    apply corr_buf_reader_producer; [apply G_r_refl|apply G_r_trans|]. apply corr_buffered_reader; [apply G_r_refl|apply G_r_trans|]. apply corr_conn_reader. apply le_n.
  Qed.

  Context (scap : nat) (consume_ops : list cscr_op) (Hn : forall n, In (ScConsumeSlots n) consume_ops -> 1 <= n)
    (Hf : Datatypes.S scrambler_capacity * Datatypes.S (length consume_ops) <= fuel).

  Lemma compat_send_good :
    match compat_send dbg fuel wait capacity input scap consume_ops with
    | Running f s => good_s capacity input sender_view sender_log_view wait f s /\ cn_closed (v_end sender_view s) = false /\ cn_sent (v_end sender_view s) = []
    | Done => False
    end.
  Proof.
    pose proof (@sender_good scap consume_ops Hn Hf) as HS. destruct (compat_send _ _ _ _ _ _ _) as [f s|]; [|contradiction].
    destruct HS as [HS E]. rewrite E. auto.
  Qed.
End Targets.

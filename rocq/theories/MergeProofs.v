(** Proofs about Merge. *)
From Coq Require Import Bool List Arith Lia.
From Verif Require Import Prelude ListFacts Traits MergeModel MergeSpec.
Import ListNotations.
Set Implicit Arguments.

Section Lists.
  Context {X : Type}.

  Lemma il_nil_l : forall ys : list X, interleave [] ys ys.
  Proof. induction ys; constructor; auto. Qed.
  Lemma il_nil_r : forall xs : list X, interleave xs [] xs.
  Proof. induction xs; constructor; auto. Qed.

  Lemma il_app : forall (x1 y1 z1 x2 y2 z2 : list X), interleave x1 y1 z1 -> interleave x2 y2 z2 ->
    interleave (x1 ++ x2) (y1 ++ y2) (z1 ++ z2).
  Proof. intros x1 y1 z1 x2 y2 z2 H H2. induction H; cbn; auto; constructor; auto. Qed.

  Lemma il_length : forall (xs ys zs : list X), interleave xs ys zs -> length zs = length xs + length ys.
  Proof. intros xs ys zs H. induction H; cbn; lia. Qed.
End Lists.

Lemma items_app : forall T F E (l1 l2 : list (event T F E)), items (l1 ++ l2) = items l1 ++ items l2.
Proof. intros. apply flat_map_app. Qed.

Section Merge.
  Context {S1 S2 T F E : Type} (P1 : producer S1 T F E) (P2 : producer S2 T F E).
  Notation merge := (merge S1 S2).
  Notation event := (event T F E).

  (** The events still to come from one side; [None] is a side that ended with a final value. *)
  Definition side {S} (P : producer S T F E) (o : option S) (evs : list event) : Prop :=
    match o with
    | Some s => exists xs l, p_yields P s xs l /\ evs = stream xs l
    | None => evs = []
    end.

  (** At least one side has not ended. *)
  Definition merge_inv (m : merge) (X Y : list event) : Prop :=
    side P1 (produce_future1 m) X /\ side P2 (produce_future2 m) Y /\
    (produce_future1 m <> None \/ produce_future2 m <> None).

  Lemma merge_step_spec : forall c m X Y, merge_inv m X Y ->
    exists m' p, merge_step P1 P2 c m = Ret (m', p) /\
    match p with
    | Pending => m' = m /\ ((produce_future1 m <> None -> ready1 c = false) /\ (produce_future2 m <> None -> ready2 c = false))
    | Again => exists f X' Y', merge_inv m' X' Y' /\
        (X = Last (Ok f) :: X' /\ Y' = Y \/ Y = Last (Ok f) :: Y' /\ X' = X) /\
        (produce_future1 m <> None /\ produce_future2 m <> None) /\
        (produce_future1 m' = None \/ produce_future2 m' = None)
    | Ready (Ok (inl x)) => exists X' Y', merge_inv m' X' Y' /\
        (X = Item x :: X' /\ Y' = Y \/ Y = Item x :: Y' /\ X' = X)
    | Ready (Ok (inr f)) => X ++ Y = [Last (Ok f)] /\ (X = [] \/ Y = [])
    | Ready (Err e) => X = [Last (Err e)] \/ Y = [Last (Err e)]
    end.
  Proof.
    intros c [[s1|] [s2|]] X Y (H1 & H2 & H3); cbn in *.
    - destruct H1 as (xs & l1 & H1 & ->). destruct H2 as (ys & l2 & H2 & ->).
      assert (HL : exists m' p, merge_left P1 s1 (mk_merge (Some s1) (Some s2)) = Ret (m', p) /\
        match p with
        | Pending => False
        | Again => exists f X' Y', merge_inv m' X' Y' /\
            (stream xs l1 = Last (Ok f) :: X' /\ Y' = stream ys l2 \/ stream ys l2 = Last (Ok f) :: Y' /\ X' = stream xs l1) /\
            (produce_future1 m' = None \/ produce_future2 m' = None)
        | Ready (Ok (inl x)) => exists X' Y', merge_inv m' X' Y' /\
            (stream xs l1 = Item x :: X' /\ Y' = stream ys l2 \/ stream ys l2 = Item x :: Y' /\ X' = stream xs l1)
        | Ready (Ok (inr f)) => False
        | Ready (Err e) => stream xs l1 = [Last (Err e)] \/ stream ys l2 = [Last (Err e)]
        end).
      { unfold merge_left. destruct H1 as [s s' f H1|s s' e H1|s s' x xs l H1 H1']; rewrite H1; cbn.
        - do 2 eexists. split; [reflexivity|]. cbn. exists f, [], (stream ys l2). splits; auto.
          unfold merge_inv; cbn. splits; auto.
          + exists ys, l2. auto.
          + right. discriminate.
        - do 2 eexists. split; [reflexivity|]. cbn. auto.
        - do 2 eexists. split; [reflexivity|]. cbn. exists (stream xs l), (stream ys l2). split; auto.
          unfold merge_inv; cbn. splits; eauto. left. discriminate. }
      assert (HR : exists m' p, merge_right P2 s2 (mk_merge (Some s1) (Some s2)) = Ret (m', p) /\
        match p with
        | Pending => False
        | Again => exists f X' Y', merge_inv m' X' Y' /\
            (stream xs l1 = Last (Ok f) :: X' /\ Y' = stream ys l2 \/ stream ys l2 = Last (Ok f) :: Y' /\ X' = stream xs l1) /\
            (produce_future1 m' = None \/ produce_future2 m' = None)
        | Ready (Ok (inl x)) => exists X' Y', merge_inv m' X' Y' /\
            (stream xs l1 = Item x :: X' /\ Y' = stream ys l2 \/ stream ys l2 = Item x :: Y' /\ X' = stream xs l1)
        | Ready (Ok (inr f)) => False
        | Ready (Err e) => stream xs l1 = [Last (Err e)] \/ stream ys l2 = [Last (Err e)]
        end).
      { unfold merge_right. destruct H2 as [s s' f H2|s s' e H2|s s' x ys l H2 H2']; rewrite H2; cbn.
        - do 2 eexists. split; [reflexivity|]. cbn. exists f, (stream xs l1), []. splits; auto.
          unfold merge_inv; cbn. splits; auto.
          + exists xs, l1. auto.
          + left. discriminate.
        - do 2 eexists. split; [reflexivity|]. cbn. auto.
        - do 2 eexists. split; [reflexivity|]. cbn. exists (stream xs l1), (stream ys l). split; auto.
          unfold merge_inv; cbn. splits; eauto. left. discriminate. }
      assert (HL' : exists m' p, merge_left P1 s1 (mk_merge (Some s1) (Some s2)) = Ret (m', p) /\
        match p with
        | Pending => m' = mk_merge (Some s1) (Some s2) /\ ((Some s1 <> None -> ready1 c = false) /\ (Some s2 <> None -> ready2 c = false))
        | Again => exists f X' Y', merge_inv m' X' Y' /\
            (stream xs l1 = Last (Ok f) :: X' /\ Y' = stream ys l2 \/ stream ys l2 = Last (Ok f) :: Y' /\ X' = stream xs l1) /\
            (Some s1 <> None /\ Some s2 <> None) /\ (produce_future1 m' = None \/ produce_future2 m' = None)
        | Ready (Ok (inl x)) => exists X' Y', merge_inv m' X' Y' /\
            (stream xs l1 = Item x :: X' /\ Y' = stream ys l2 \/ stream ys l2 = Item x :: Y' /\ X' = stream xs l1)
        | Ready (Ok (inr f)) => stream xs l1 ++ stream ys l2 = [Last (Ok f)] /\ (stream xs l1 = [] \/ stream ys l2 = [])
        | Ready (Err e) => stream xs l1 = [Last (Err e)] \/ stream ys l2 = [Last (Err e)]
        end).
      { destruct HL as (m' & p & E1 & HL). exists m', p. split; [exact E1|]. destruct p as [| |[[x|f]|e]]; auto; try contradiction.
        destruct HL as (f & X' & Y' & A & B & C). exists f, X', Y'. splits; auto; discriminate. }
      assert (HR' : exists m' p, merge_right P2 s2 (mk_merge (Some s1) (Some s2)) = Ret (m', p) /\
        match p with
        | Pending => m' = mk_merge (Some s1) (Some s2) /\ ((Some s1 <> None -> ready1 c = false) /\ (Some s2 <> None -> ready2 c = false))
        | Again => exists f X' Y', merge_inv m' X' Y' /\
            (stream xs l1 = Last (Ok f) :: X' /\ Y' = stream ys l2 \/ stream ys l2 = Last (Ok f) :: Y' /\ X' = stream xs l1) /\
            (Some s1 <> None /\ Some s2 <> None) /\ (produce_future1 m' = None \/ produce_future2 m' = None)
        | Ready (Ok (inl x)) => exists X' Y', merge_inv m' X' Y' /\
            (stream xs l1 = Item x :: X' /\ Y' = stream ys l2 \/ stream ys l2 = Item x :: Y' /\ X' = stream xs l1)
        | Ready (Ok (inr f)) => stream xs l1 ++ stream ys l2 = [Last (Ok f)] /\ (stream xs l1 = [] \/ stream ys l2 = [])
        | Ready (Err e) => stream xs l1 = [Last (Err e)] \/ stream ys l2 = [Last (Err e)]
        end).
      { destruct HR as (m' & p & E1 & HR). exists m', p. split; [exact E1|]. destruct p as [| |[[x|f]|e]]; auto; try contradiction.
        destruct HR as (f & X' & Y' & A & B & C). exists f, X', Y'. splits; auto; discriminate. }
      unfold merge_step. cbn [produce_future1 produce_future2].
      destruct (second_first c); destruct (ready1 c) eqn:R1; destruct (ready2 c) eqn:R2; auto;
        (do 2 eexists; split; [reflexivity|]; cbn; auto).
    - destruct H1 as (xs & l1 & H1 & ->). subst Y. unfold merge_step. cbn. destruct (ready1 c) eqn:R1.
      + destruct H1 as [s s' f H1|s s' e H1|s s' x xs l H1 H1']; rewrite H1; cbn; (do 2 eexists; split; [reflexivity|]); cbn; auto.
        exists (stream xs l), []. split; auto. unfold merge_inv; cbn. splits; eauto. left. discriminate.
      + do 2 eexists; split; [reflexivity|]; cbn. splits; auto. congruence.
    - destruct H2 as (ys & l2 & H2 & ->). subst X. unfold merge_step. cbn. destruct (ready2 c) eqn:R2.
      + destruct H2 as [s s' f H2|s s' e H2|s s' y ys l H2 H2']; rewrite H2; cbn; (do 2 eexists; split; [reflexivity|]); cbn; auto.
        exists [], (stream ys l). split; auto. unfold merge_inv; cbn. splits; eauto. right. discriminate.
      + do 2 eexists; split; [reflexivity|]; cbn. splits; auto. congruence.
    - destruct H3; congruence.
  Qed.

  (** One call of [produce]: the events [dropped] are the final values it skipped. *)
  Lemma merge_produce_spec : forall sched m X Y, merge_inv m X Y ->
    exists m' sched' r X1 Y1 X' Y' Z, merge_produce P1 P2 sched m = Ret (m', sched', r) /\
      X = X1 ++ X' /\ Y = Y1 ++ Y' /\ interleave X1 Y1 Z /\
      match r with
      | None => merge_inv m' X' Y' /\ items Z = [] /\ no_error Z /\ sched' = []
      | Some (Ok (inl x)) => merge_inv m' X' Y' /\ items Z = [x] /\ no_error Z
      | Some (Ok (inr f)) => X' = [] /\ Y' = [] /\ exists Z0, Z = Z0 ++ [Last (Ok f)] /\ items Z0 = [] /\ no_error Z0
      | Some (Err e) => exists Z0, Z = Z0 ++ [Last (Err e)] /\ items Z0 = [] /\ no_error Z0
      end.
  Proof.
    induction sched as [|c sched IH]; intros m X Y HI.
    { exists m, [], None, [], [], X, Y, []. cbn. splits; auto; [constructor|]. intros e []. }
    cbn [merge_produce]. destruct (merge_step_spec c HI) as (m1 & p & E1 & H1). rewrite E1. cbn [bind].
    destruct p as [| |[[x|f]|e]].
    - destruct H1 as [-> _]. exact (IH m X Y HI).
    - destruct H1 as (f & Xa & Ya & HI' & HXY & _).
      destruct (IH m1 Xa Ya HI') as (m' & sched' & r & X1 & Y1 & X' & Y' & Z & E2 & -> & -> & HZ & Hr).
      assert (Hne : forall Z, no_error Z -> @no_error T F E (Last (Ok f) :: Z)).
      { intros Z0 H e [H'|H']; [discriminate|]. exact (H e H'). }
      assert (Hfin : match r with
        | None => merge_inv m' X' Y' /\ items (Last (Ok f) :: Z) = [] /\ no_error (Last (Ok f) :: Z) /\ sched' = []
        | Some (Ok (inl x)) => merge_inv m' X' Y' /\ items (Last (Ok f) :: Z) = [x] /\ no_error (Last (Ok f) :: Z)
        | Some (Ok (inr f0)) => X' = [] /\ Y' = [] /\
            exists Z0, Last (Ok f) :: Z = Z0 ++ [Last (Ok f0)] /\ items Z0 = [] /\ no_error Z0
        | Some (Err e) => exists Z0, Last (Ok f) :: Z = Z0 ++ [Last (Err e)] /\ items Z0 = [] /\ no_error Z0
        end).
      { destruct r as [[[x|f0]|e]|].
        - destruct Hr as (A & B & C). splits; auto.
        - destruct Hr as (A & B & Z0 & -> & C & D). splits; auto. exists (Last (Ok f) :: Z0). splits; auto.
        - destruct Hr as (Z0 & -> & C & D). exists (Last (Ok f) :: Z0). splits; auto.
        - destruct Hr as (A & B & C & D). splits; auto. }
      destruct HXY as [[-> <-]|[-> <-]].
      + exists m', sched', r, (Last (Ok f) :: X1), Y1, X', Y', (Last (Ok f) :: Z). splits; auto. now constructor.
      + exists m', sched', r, X1, (Last (Ok f) :: Y1), X', Y', (Last (Ok f) :: Z). splits; auto. now constructor.
    - destruct H1 as (X' & Y' & HI' & HXY).
      assert (Hn : @no_error T F E [Item x]) by (intros e [H|[]]; discriminate).
      destruct HXY as [[-> ->]|[-> ->]].
      + exists m1, sched, (Some (Ok (inl x))), [Item x], [], X', Y, [Item x]. splits; auto. repeat constructor.
      + exists m1, sched, (Some (Ok (inl x))), [], [Item x], X, Y', [Item x]. splits; auto. repeat constructor.
    - destruct H1 as (HXY & H0).
      exists m1, sched, (Some (Ok (inr f))), X, Y, [], [], [Last (Ok f)]. rewrite !app_nil_r. splits; auto.
      + destruct H0 as [->| ->]; cbn in HXY.
        * rewrite HXY. apply il_nil_l.
        * rewrite app_nil_r in HXY. rewrite HXY. apply il_nil_r.
      + exists []. cbn. splits; auto. intros e [].
    - assert (Hn : exists Z0 : list event, [Last (Err e)] = Z0 ++ [Last (Err e)] /\ items Z0 = [] /\ no_error Z0).
      { exists []. cbn. splits; auto. intros e' []. }
      destruct H1 as [->| ->].
      + exists m1, sched, (Some (Err e)), [Last (Err e)], [], [], Y, [Last (Err e)]. splits; auto. repeat constructor.
      + exists m1, sched, (Some (Err e)), [], [Last (Err e)], X, [], [Last (Err e)]. splits; auto. repeat constructor.
  Qed.

  Definition merge_result (m' : merge) (out : list T) (l : option (res F E)) (X Y : list event) : Prop :=
    exists X1 Y1 X' Y' Z, X = X1 ++ X' /\ Y = Y1 ++ Y' /\ interleave X1 Y1 Z /\
      match l with
      | None => merge_inv m' X' Y' /\ items Z = out /\ no_error Z
      | Some (Ok f) => X' = [] /\ Y' = [] /\ exists Z0, Z = Z0 ++ [Last (Ok f)] /\ items Z0 = out /\ no_error Z0
      | Some (Err e) => exists Z0, Z = Z0 ++ [Last (Err e)] /\ items Z0 = out /\ no_error Z0
      end.

  Lemma merge_calls_spec : forall n sched m X Y, merge_inv m X Y ->
    exists m' out l, merge_calls P1 P2 n sched m = Ret (m', out, l) /\ merge_result m' out l X Y.
  Proof.
    induction n as [|n IH]; intros sched m X Y HI.
    { exists m, [], None. split; [reflexivity|]. exists [], [], X, Y, []. splits; auto; [constructor|]. splits; auto. intros e []. }
    cbn [merge_calls].
    destruct (merge_produce_spec sched HI) as (m1 & sched' & r & X1 & Y1 & X' & Y' & Z & E1 & -> & -> & HZ & Hr).
    rewrite E1. cbn [bind]. destruct r as [[[x|f]|e]|].
    - destruct Hr as (HI' & Hit & Hne).
      destruct (IH sched' m1 X' Y' HI') as (m' & out & l & E2 & (X2 & Y2 & X3 & Y3 & Z2 & -> & -> & HZ2 & Hl)).
      rewrite E2. cbn [bind]. exists m', (x :: out), l. split; [reflexivity|].
      exists (X1 ++ X2), (Y1 ++ Y2), X3, Y3, (Z ++ Z2). rewrite !app_assoc. splits; auto; [now apply il_app|].
      assert (Hnn : forall Z0, no_error Z0 -> @no_error T F E (Z ++ Z0)).
      { intros Z0 H e Hin. apply in_app_iff in Hin. destruct Hin as [Hin|Hin]; [exact (Hne e Hin)|exact (H e Hin)]. }
      destruct l as [[f|e]|].
      + destruct Hl as (-> & -> & Z0 & -> & H0 & Hn0). splits; auto. exists (Z ++ Z0). rewrite app_assoc, items_app, Hit, H0. auto.
      + destruct Hl as (Z0 & -> & H0 & Hn0). exists (Z ++ Z0). rewrite app_assoc, items_app, Hit, H0. auto.
      + destruct Hl as (A & B & C). rewrite items_app, Hit, B. auto.
    - exists m1, [], (Some (Ok f)). split; [reflexivity|]. exists X1, Y1, X', Y', Z. splits; auto; tauto.
    - exists m1, [], (Some (Err e)). split; [reflexivity|]. exists X1, Y1, X', Y', Z. splits; auto; tauto.
    - exists m1, [], None. split; [reflexivity|]. exists X1, Y1, X', Y', Z. splits; auto; tauto.
  Qed.

  Lemma merge_new_inv : forall s1 s2 xs l1 ys l2, p_yields P1 s1 xs l1 -> p_yields P2 s2 ys l2 ->
    merge_inv (merge_new s1 s2) (stream xs l1) (stream ys l2).
  Proof.
    intros s1 s2 xs l1 ys l2 H1 H2. unfold merge_inv. cbn. splits; eauto. left. discriminate.
  Qed.

  (** Progress: two rounds in which everything is ready complete any call. *)
  Lemma merge_produce_progress : forall sched m X Y, merge_inv m X Y ->
    (if produce_future1 m then if produce_future2 m then 2 else 1 else 1) <= rounds sched ->
    exists m' sched' r, merge_produce P1 P2 sched m = Ret (m', sched', Some r) /\
      rounds sched <= rounds sched' + (if produce_future1 m then if produce_future2 m then 2 else 1 else 1).
  Proof.
    induction sched as [|c sched IH]; intros m X Y HI Hr.
    { cbn in Hr. destruct (produce_future1 m), (produce_future2 m); lia. }
    cbn [merge_produce]. destruct (merge_step_spec c HI) as (m1 & p & E1 & H1). rewrite E1. cbn [bind].
    assert (Hc : rounds (c :: sched) <= Datatypes.S (rounds sched)).
    { unfold rounds. cbn. destruct (ready1 c && ready2 c); cbn; lia. }
    assert (Hc' : rounds sched <= rounds (c :: sched)).
    { unfold rounds. cbn. destruct (ready1 c && ready2 c); cbn; lia. }
    destruct p as [| |r].
    - destruct H1 as (-> & R1 & R2).
      assert (Hs : rounds (c :: sched) = rounds sched).
      { unfold rounds. cbn. destruct HI as (_ & _ & [H|H]); [rewrite (R1 H)|rewrite (R2 H), andb_false_r]; reflexivity. }
      rewrite Hs in *. eapply IH; eauto.
    - destruct H1 as (f & X' & Y' & HI' & _ & (N1 & N2) & Hm).
      destruct (produce_future1 m) eqn:F1; [|congruence]. destruct (produce_future2 m) eqn:F2; [|congruence].
      assert (Hone : (if produce_future1 m1 then if produce_future2 m1 then 2 else 1 else 1) = 1).
      { destruct Hm as [-> |Hm]; [reflexivity|]. rewrite Hm. now destruct (produce_future1 m1). }
      destruct (IH m1 X' Y' HI') as (m' & sched' & r & E2 & H2); [lia|].
      exists m', sched', r. split; [exact E2|]. lia.
    - exists m1, sched, r. split; [reflexivity|].
      destruct (produce_future1 m), (produce_future2 m); lia.
  Qed.

  (** Enough rounds, and enough calls, reach the end. *)
  Lemma merge_calls_complete : forall n sched m X Y, merge_inv m X Y ->
    length X + length Y <= n -> 2 * n <= rounds sched ->
    exists m' out l, merge_calls P1 P2 n sched m = Ret (m', out, Some l).
  Proof.
    induction n as [|n IH]; intros sched m X Y HI Hn Hr.
    { exfalso. destruct HI as (H1 & H2 & H3).
      destruct (produce_future1 m); [|destruct (produce_future2 m); [|destruct H3; congruence]].
      - destruct H1 as (xs & l & _ & ->). unfold stream in Hn. rewrite app_length in Hn. cbn in Hn. lia.
      - destruct H2 as (ys & l & _ & ->). unfold stream in Hn. rewrite !app_length in Hn. cbn in Hn. lia. }
    destruct (@merge_produce_progress sched m X Y HI) as (m1 & sched' & r & E1 & Hs).
    { destruct (produce_future1 m), (produce_future2 m); lia. }
    destruct (merge_produce_spec sched HI) as (m1' & sched'' & r' & X1 & Y1 & X' & Y' & Z & E1' & -> & -> & HZ & Hr').
    rewrite E1 in E1'. injection E1' as <- <- <-. cbn [merge_calls]. rewrite E1. cbn [bind].
    destruct r as [[x|f]|e]; [|eauto|eauto].
    destruct Hr' as (HI' & Hit & _).
    assert (1 <= length Z) by (destruct Z; [discriminate|cbn; lia]).
    pose proof (il_length HZ). rewrite !app_length in Hn.
    destruct (IH sched' m1 X' Y' HI') as (m' & out & l & E2); [lia| |].
    { destruct (produce_future1 m), (produce_future2 m); lia. }
    rewrite E2. cbn. eauto.
  Qed.
End Merge.

(** ** No use after the end *)
Section Guarded.
  Context {S1 S2 T F E : Type} (P1 : producer S1 T F E) (P2 : producer S2 T F E).
  Hypothesis H1 : p_total P1.
  Hypothesis H2 : p_total P2.

  (** Both futures own producers that have not ended. *)
  Definition merge_live (m : merge (option S1) (option S2)) : Prop :=
    match produce_future1 m with Some None => False | _ => True end /\
    match produce_future2 m with Some None => False | _ => True end /\
    (produce_future1 m <> None \/ produce_future2 m <> None).

  Lemma merge_step_live : forall c m, merge_live m ->
    exists m' p, merge_step (guarded P1) (guarded P2) c m = Ret (m', p) /\
      match p with Ready (Ok (inr _)) | Ready (Err _) => True | _ => merge_live m' end.
  Proof.
    assert (G1 : forall s, exists s' r, p_produce (guarded P1) (Some s) = Ret (s', r) /\
      match r with Ok (inl _) => s' <> None | _ => True end).
    { intros s. destruct (H1 s) as (s' & [[x|f]|e] & E1); cbn; rewrite E1; cbn; do 2 eexists; split; try reflexivity; cbn; auto; discriminate. }
    assert (G2 : forall s, exists s' r, p_produce (guarded P2) (Some s) = Ret (s', r) /\
      match r with Ok (inl _) => s' <> None | _ => True end).
    { intros s. destruct (H2 s) as (s' & [[x|f]|e] & E1); cbn; rewrite E1; cbn; do 2 eexists; split; try reflexivity; cbn; auto; discriminate. }
    assert (GL : forall s1 o2, (match o2 with Some None => False | _ => True end) -> o2 <> None ->
      exists m' p, merge_left (guarded P1) (Some s1) (mk_merge (Some (Some s1)) o2) = Ret (m', p) /\
      match p with Ready (Ok (inr _)) | Ready (Err _) => True | _ => merge_live m' end).
    { intros s1 o2 Ho Hn. destruct (G1 s1) as (s' & r & E1 & Hr). unfold merge_left. rewrite E1. cbn [bind].
      destruct r as [[x|f]|e]; do 2 eexists; (split; [reflexivity|]); cbn; auto; unfold merge_live; cbn.
      - splits; auto. destruct s'; auto. 
      - splits; auto. }
    assert (GR : forall s2 o1, (match o1 with Some None => False | _ => True end) -> o1 <> None ->
      exists m' p, merge_right (guarded P2) (Some s2) (mk_merge o1 (Some (Some s2))) = Ret (m', p) /\
      match p with Ready (Ok (inr _)) | Ready (Err _) => True | _ => merge_live m' end).
    { intros s2 o1 Ho Hn. destruct (G2 s2) as (s' & r & E1 & Hr). unfold merge_right. rewrite E1. cbn [bind].
      destruct r as [[x|f]|e]; do 2 eexists; (split; [reflexivity|]); cbn; auto; unfold merge_live; cbn.
      - splits; auto. destruct s'; auto. 
      - splits; auto. }
    intros c [[[s1|]|] [[s2|]|]] (L1 & L2 & L3); cbn in L1, L2, L3; try contradiction; unfold merge_step; cbn [produce_future1 produce_future2].
    - assert (HP : exists m' p, Ret (mk_merge (Some (Some s1)) (Some (Some s2)), @Pending (res (T + F) E)) = Ret (m', p) /\
        match p with Ready (Ok (inr _)) | Ready (Err _) => True | _ => merge_live m' end).
      { do 2 eexists. split; [reflexivity|]. cbn. unfold merge_live; cbn. auto. }
      destruct (second_first c), (ready1 c), (ready2 c); auto; first [apply GL|apply GR]; auto; discriminate.
    - destruct (ready1 c).
      + destruct (G1 s1) as (s' & r & E1 & Hr). rewrite E1. cbn [bind]. do 2 eexists. split; [reflexivity|].
        destruct r as [[x|f]|e]; auto. unfold merge_live; cbn. splits; auto.
        * destruct s'; auto.
        * left. discriminate.
      + do 2 eexists. split; [reflexivity|]. cbn. unfold merge_live; cbn. auto.
    - destruct (ready2 c).
      + destruct (G2 s2) as (s' & r & E1 & Hr). rewrite E1. cbn [bind]. do 2 eexists. split; [reflexivity|].
        destruct r as [[x|f]|e]; auto. unfold merge_live; cbn. splits; auto.
        * destruct s'; auto.
        * right. discriminate.
      + do 2 eexists. split; [reflexivity|]. cbn. unfold merge_live; cbn. auto.
    - destruct L3; congruence.
  Qed.

  Lemma merge_produce_live : forall sched m, merge_live m ->
    exists m' sched' r, merge_produce (guarded P1) (guarded P2) sched m = Ret (m', sched', r) /\
      match r with Some (Ok (inr _)) | Some (Err _) => True | _ => merge_live m' end.
  Proof.
    induction sched as [|c sched IH]; intros m HL.
    { do 3 eexists. split; [reflexivity|exact HL]. }
    cbn [merge_produce]. destruct (merge_step_live c HL) as (m1 & p & E1 & Hp). rewrite E1. cbn [bind].
    destruct p as [| |r]; auto. do 3 eexists. split; [reflexivity|]. destruct r as [[x|f]|e]; auto.
  Qed.

  Lemma merge_calls_live : forall n sched m, merge_live m ->
    exists m' out l, merge_calls (guarded P1) (guarded P2) n sched m = Ret (m', out, l).
  Proof.
    induction n as [|n IH]; intros sched m HL; [cbn; eauto|].
    cbn [merge_calls]. destruct (merge_produce_live sched HL) as (m1 & sched' & r & E1 & Hr). rewrite E1. cbn [bind].
    destruct r as [[[x|f]|e]|]; eauto. destruct (IH sched' m1 Hr) as (m' & out & l & E2). rewrite E2. cbn. eauto.
  Qed.
End Guarded.

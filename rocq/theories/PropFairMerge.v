(** Property C106: Merge over endless time. *)
From Coq Require Import Bool List Arith Lia.
From Verif Require Import Prelude ListFacts Traits MergeModel MergeSpec MergeProofs FairMergeSpec FairMergeProofs.
Import ListNotations.

(** Finite producers: it is enough that each future is ready again and again, in whichever order they are polled. *)
Theorem C106_terminates :
  forall (S1 S2 T F E : Type) (P1 : producer S1 T F E) (P2 : producer S2 T F E) s1 s2 xs l1 ys l2 sched,
  p_yields P1 s1 xs l1 -> p_yields P2 s2 ys l2 ->
  infinitely_often sched ready1 -> infinitely_often sched ready2 ->
  exists n m' out l, merge_until P1 P2 sched n (merge_new s1 s2) = Ret (m', out, Some l).
Proof.
  intros S1 S2 T F E P1 P2 s1 s2 xs l1 ys l2 sched H1 H2 R1 R2.
  destruct (terminates R1 R2 (merge_new_inv H1 H2)) as (n & m' & out & l & E1). exists n, m', out, l. now rewrite until_run.
Qed.
Print Assumptions C106_terminates.

(** Producers that may be endless, and do not fail: if each side is picked again and again then all items of both sides come out, each side in its order. *)
Theorem C106_fair :
  forall (S1 S2 T F E : Type) (P1 : producer S1 T F E) (P2 : producer S2 T F E) s1 s2 g1 g2 sched k,
  flows P1 s1 g1 -> flows P2 s2 g2 ->
  infinitely_often sched picks1 -> infinitely_often sched picks2 ->
  exists n m' out l a b, merge_until P1 P2 sched n (merge_new s1 s2) = Ret (m', out, l) /\ (forall e, l <> Some (Err e)) /\
    interleave (up_to g1 a) (up_to g2 b) out /\ (k <= a \/ g1 a = None) /\ (k <= b \/ g2 b = None).
Proof.
  intros S1 S2 T F E P1 P2 s1 s2 g1 g2 sched k (st1 & E1 & H1) (st2 & E2 & H2) F1 F2.
  destruct (@fair_run _ _ _ _ _ P1 P2 g1 g2 st1 st2 H1 H2 sched (merge_new s1 s2) F1 F2) with (k := k) as (n & m' & out & l & a & b & HR & Hl & HI & Ka & Kb & _).
  - split; [split; [lia|now symmetry]|]. split; [split; [lia|now symmetry]|]. left. discriminate.
  - exists n, m', out, l, a, b. rewrite until_run. unfold range in HI. rewrite !Nat.sub_0_r in HI. auto.
Qed.
Print Assumptions C106_fair.

(** At any time, and for any schedule: what has come out so far are the first items of both, and it fails only if one of them does. *)
Theorem C106_any_time :
  forall (S1 S2 T F E : Type) (P1 : producer S1 T F E) (P2 : producer S2 T F E) s1 s2 g1 g2 sched n,
  flows P1 s1 g1 -> flows P2 s2 g2 ->
  exists m' out l a b, merge_until P1 P2 sched n (merge_new s1 s2) = Ret (m', out, l) /\
    interleave (up_to g1 a) (up_to g2 b) out /\
    match l with
    | None => True
    | Some (Ok _) => g1 a = None /\ g2 b = None
    | Some (Err _) => False
    end.
Proof.
  intros S1 S2 T F E P1 P2 s1 s2 g1 g2 sched n (st1 & E1 & H1) (st2 & E2 & H2).
  destruct (@run_at _ _ _ _ _ P1 P2 g1 g2 st1 st2 H1 H2 (beginning sched n) (merge_new s1 s2) 0 0) as (m' & out & l & a & b & HR & _ & _ & _ & _ & HI & _ & _ & Hl).
  - split; [split; [lia|now symmetry]|]. split; [split; [lia|now symmetry]|]. left. discriminate.
  - exists m', out, l, a, b. rewrite until_run. unfold range in HI. rewrite !Nat.sub_0_r in HI. split; [exact HR|]. split; [exact HI|].
    destruct l as [[f|e]|]; auto.
Qed.
Print Assumptions C106_any_time.

(** Without that: as long as the first side has items and is picked, nothing comes from the second; it is not even called. *)
Theorem C106_starvation :
  forall (S1 S2 T F E : Type) (P1 : producer S1 T F E) (P2 : producer S2 T F E) s1 s2 g1 sched n,
  flows P1 s1 g1 -> (forall i, g1 i <> None) -> (forall i, picks1 (sched i) = true) ->
  exists s1', merge_until P1 P2 sched n (merge_new s1 s2) = Ret (mk_merge (Some s1') (Some s2), up_to g1 n, None).
Proof.
  intros S1 S2 T F E P1 P2 s1 s2 g1 sched n (st & E1 & H) HE HP. exists (st n). rewrite until_run. unfold merge_new. rewrite <- E1.
  induction n as [|n IH]; [reflexivity|]. replace (S n) with (n + 1) by lia. rewrite beginning_app, (@run_app _ _ _ _ _ P1 P2 _ _ _ _ _ IH).
  cbn [seq map run]. unfold up_to. rewrite seq_app, flat_map_app. cbn [plus seq flat_map]. rewrite app_nil_r.
  specialize (H n (fun j _ => HE j)). specialize (HP n). destruct (g1 n) as [x|] eqn:G; [|destruct (HE n G)].
  replace (n + 1) with (S n) by lia. unfold picks1 in HP. unfold merge_step, merge_left. cbn.
  destruct (ready1 (sched n)), (second_first (sched n)), (ready2 (sched n)); try discriminate; rewrite H; reflexivity.
Qed.
Print Assumptions C106_starvation.

(** "forwards the first error" (merge.rs 8): not, if the other producer always has something, both futures are always ready, and [select] prefers the first. *)
Definition counting : producer nat nat nat nat := mk_producer (fun n => Ret (S n, Ok (inl n))).
Definition failing : producer unit nat nat nat := mk_producer (fun s => Ret (s, Err 7)).

Lemma counting_flows : flows (F := nat) (E := nat) counting 0 (fun n => Some n).
Proof. exists (fun n => n). split; [reflexivity|]. intros n _. reflexivity. Qed.

Theorem C106_starvation_refuted :
  exists sched, (forall i, ready1 (sched i) = true /\ ready2 (sched i) = true) /\ p_yields failing tt [] (Err 7) /\
    forall n, exists m', merge_until counting failing sched n (merge_new 0 tt) = Ret (m', seq 0 n, None).
Proof.
  exists (fun _ => mk_choice false true true). split; [split; reflexivity|]. split; [eapply p_yields_error; reflexivity|].
  intros n. destruct (C106_starvation _ _ _ _ _ counting failing 0 tt _ (fun _ => mk_choice false true true) n counting_flows) as (s1' & E1).
  - discriminate.
  - reflexivity.
  - exists (mk_merge (Some s1') (Some tt)). rewrite E1. do 3 f_equal. unfold up_to.
    induction (seq 0 n) as [|i l IH]; cbn; congruence.
Qed.
Print Assumptions C106_starvation_refuted.

(** Two endless producers, [select] preferring each in turn, every other choice without anything ready. *)
Definition in_turns (n : nat) : choice := mk_choice (Nat.odd (n / 2)) (Nat.even n) (Nat.even n).
Lemma in_turns_fair : infinitely_often in_turns picks1 /\ infinitely_often in_turns picks2 /\ infinitely_often in_turns ready1 /\ infinitely_often in_turns ready2.
Proof.
  assert (E4 : forall n k, k < 4 -> in_turns (n * 4 + k) = in_turns k).
  { intros n k Hk. unfold in_turns. replace (n * 4 + k) with (k + (n * 2) * 2) by lia. rewrite Nat.div_add by lia.
    rewrite Nat.odd_add, Nat.odd_mul, Nat.even_add, Nat.even_mul. cbn [Nat.odd Nat.even].
    rewrite andb_false_r, xorb_false_r, orb_true_r. now destruct (Nat.even k). }
  splits; intros n; [exists (n * 4 + 0)|exists (n * 4 + 2)|exists (n * 4 + 0)|exists (n * 4 + 0)]; rewrite E4 by lia; (split; [lia|reflexivity]).
Qed.

Example C106_example :
  flows (F := nat) (E := nat) counting 0 (fun n => Some n) /\ flows (F := nat) (E := nat) counting 100 (fun n => Some (100 + n)) /\
  infinitely_often in_turns picks1 /\ infinitely_often in_turns picks2 /\
  merge_until counting counting in_turns 9 (merge_new 0 100) = Ret (mk_merge (Some 3) (Some 102), [0; 100; 1; 101; 2], None) /\
  (* one that ends *)
  flows (E := nat) (mk_producer (fun n => Ret (S n, if n <? 2 then Ok (inl n) else Ok (inr 55)))) 0 (fun n => if n <? 2 then Some n else None) /\
  merge_until counting (mk_producer (fun n => Ret (S n, if n <? 2 then Ok (inl n) else Ok (inr 55)))) in_turns 15 (merge_new 10 0) =
    Ret (mk_merge (Some 15) None, [10; 0; 11; 1; 12; 13; 14], None) /\
  (* two that end *)
  p_yields (mk_producer (fun n => Ret (S n, if n <? 2 then Ok (inl n) else Ok (inr 55)))) 0 [0; 1] (Ok 55) (E := nat) /\
  p_yields failing tt [] (Err 7) /\
  infinitely_often in_turns ready1 /\ infinitely_often in_turns ready2 /\
  merge_until (mk_producer (fun n => Ret (S n, if n <? 2 then Ok (inl n) else Ok (inr 55)))) failing in_turns 5 (merge_new 0 tt) =
    Ret (mk_merge (Some 1) (Some tt), [0], Some (Err 7)).
Proof.
  destruct in_turns_fair as (F1 & F2 & F3 & F4).
  refine (conj counting_flows (conj _ (conj F1 (conj F2 (conj eq_refl (conj _ (conj eq_refl (conj _ (conj _ (conj F3 (conj F4 eq_refl))))))))))).
  - exists (fun n => 100 + n). split; [reflexivity|]. intros n _. cbn. reflexivity.
  - exists (fun n => n). split; [reflexivity|]. intros n _. cbn. destruct (n <? 2); eauto.
  - eapply p_yields_item; [reflexivity|]. eapply p_yields_item; [reflexivity|]. eapply p_yields_final. reflexivity.
  - eapply p_yields_error. reflexivity.
Qed.

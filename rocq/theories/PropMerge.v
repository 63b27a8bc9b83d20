(** Properties C36-C37: Merge. *)
From Coq Require Import Bool List Arith Lia.
From Verif Require Import Prelude ListFacts Traits MergeModel MergeSpec MergeProofs.
Import ListNotations.

(** *** C36. A caller calls [produce] up to [n] times under an arbitrary schedule. If it sees the end,
    then all events of both producers happened, in an order that keeps the order of each; the value
    reported is the last event, and what was emitted is the items among the others. A failing
    producer ends the merge at its error, after a prefix of the events of the other one. *)

Theorem C36_merge_interleaves :
  forall (S1 S2 T F E : Type) (P1 : producer S1 T F E) (P2 : producer S2 T F E) s1 s2 xs l1 ys l2 n sched,
  p_yields P1 s1 xs l1 -> p_yields P2 s2 ys l2 ->
  exists m' out l, merge_calls P1 P2 n sched (merge_new s1 s2) = Ret (m', out, l) /\
  match l with
  | Some (Ok f) => exists Z, interleave (stream xs l1) (stream ys l2) (Z ++ [Last (Ok f)]) /\
      items Z = out /\ no_error Z
  | Some (Err e) => exists X Y X' Y' Z, stream xs l1 = X ++ X' /\ stream ys l2 = Y ++ Y' /\
      interleave X Y (Z ++ [Last (Err e)]) /\ items Z = out /\ no_error Z
  | None => exists X Y X' Y' Z, stream xs l1 = X ++ X' /\ stream ys l2 = Y ++ Y' /\
      interleave X Y Z /\ items Z = out /\ no_error Z
  end.
Proof.
  intros S1 S2 T F E P1 P2 s1 s2 xs l1 ys l2 n sched H1 H2.
  destruct (merge_calls_spec n sched (merge_new_inv H1 H2)) as (m' & out & l & E1 & (X & Y & X' & Y' & Z & EX & EY & HZ & Hl)).
  exists m', out, l. split; [exact E1|]. destruct l as [[f|e]|].
  - destruct Hl as (-> & -> & Z0 & -> & Hi & Hn). rewrite !app_nil_r in *. subst X Y. exists Z0. auto.
  - destruct Hl as (Z0 & -> & Hi & Hn). exists X, Y, X', Y', Z0. auto.
  - destruct Hl as (_ & Hi & Hn). exists X, Y, X', Y', Z. auto.
Qed.
Print Assumptions C36_merge_interleaves.

(** The same in terms of items. That the final value is the one of the producer that ended last is
    said by [C36_merge_interleaves]: the interleaving has both ends, and [f] is its last event. *)
Lemma il_items : forall T F E (X Y Z : list (event T F E)), interleave X Y Z -> interleave (items X) (items Y) (items Z).
Proof. intros T F E X Y Z H. induction H as [|[x|l] X Y Z H IH|[x|l] X Y Z H IH]; cbn; try constructor; auto. Qed.

Lemma items_stream : forall T F E (xs : list T) (l : res F E), items (stream xs l) = xs.
Proof.
  intros T F E xs l. unfold stream. rewrite items_app. cbn. rewrite app_nil_r.
  unfold items. induction xs; cbn; congruence.
Qed.

Lemma il_in : forall X (xs ys zs : list X) z, interleave xs ys zs -> (In z zs <-> In z xs \/ In z ys).
Proof. intros X xs ys zs z H. induction H; cbn; tauto. Qed.

Lemma stream_in : forall T F E (xs : list T) (l l' : res F E), In (Last l') (stream xs l) <-> l' = l.
Proof.
  intros T F E xs l l'. unfold stream. rewrite in_app_iff, in_map_iff. cbn. split.
  - intros [(x & H & _)|[H|[]]]; congruence.
  - intros ->. auto.
Qed.

Lemma no_error_last : forall T F E (Z : list (event T F E)) l, (forall e, l <> Err e) -> no_error Z -> no_error (Z ++ [Last l]).
Proof.
  intros T F E Z l Hl Hn e Hi. apply in_app_iff in Hi. destruct Hi as [Hi|[Hi|[]]]; [exact (Hn e Hi)|].
  injection Hi as ->. exact (Hl e eq_refl).
Qed.

Lemma stream_split : forall T F E (xs : list T) (l : res F E) X X',
  stream xs l = X ++ X' -> (X' = [] /\ X = stream xs l) \/ (exists xs1 xs2, xs = xs1 ++ xs2 /\ X = map Item xs1).
Proof.
  intros T F E xs l X X' H. destruct X' as [|ev X'] using rev_ind.
  - left. rewrite app_nil_r in H. auto.
  - right. clear IHX'. unfold stream in H. rewrite app_assoc in H. apply app_inj_tail in H. destruct H as [H _].
    symmetry in H. clear ev. revert xs H. induction X as [|ev X IH]; intros xs H; cbn in H.
    + exists [], xs. auto.
    + destruct xs as [|x xs]; [discriminate|]. cbn in H. injection H as -> H.
      destruct (IH xs H) as (xs1 & xs2 & -> & ->). exists (x :: xs1), xs2. auto.
Qed.

Lemma items_map : forall T F E (xs : list T), items (map (@Item T F E) xs) = xs.
Proof. unfold items. induction xs; cbn; congruence. Qed.

Theorem C36_merge_final :
  forall (S1 S2 T F E : Type) (P1 : producer S1 T F E) (P2 : producer S2 T F E) s1 s2 xs l1 ys l2 n sched m' out f,
  p_yields P1 s1 xs l1 -> p_yields P2 s2 ys l2 ->
  merge_calls P1 P2 n sched (merge_new s1 s2) = Ret (m', out, Some (Ok f)) ->
  exists f1 f2, l1 = Ok f1 /\ l2 = Ok f2 /\ interleave xs ys out /\ (f = f1 \/ f = f2).
Proof.
  intros S1 S2 T F E P1 P2 s1 s2 xs l1 ys l2 n sched m' out f H1 H2 E1.
  destruct (C36_merge_interleaves _ _ _ _ _ P1 P2 s1 s2 xs l1 ys l2 n sched H1 H2) as (m2 & out2 & l & E2 & Hl).
  rewrite E1 in E2. injection E2 as <- <- <-. destruct Hl as (Z & HZ & Hi & Hn).
  assert (Hn' : no_error (Z ++ [Last (Ok f)])) by (apply no_error_last; auto; discriminate).
  assert (HI1 : In (Last l1) (Z ++ [Last (Ok f)])) by (apply (il_in _ _ _ _ _ HZ); left; now apply stream_in).
  assert (HI2 : In (Last l2) (Z ++ [Last (Ok f)])) by (apply (il_in _ _ _ _ _ HZ); right; now apply stream_in).
  destruct l1 as [f1|e1]; [|destruct (Hn' e1 HI1)]. destruct l2 as [f2|e2]; [|destruct (Hn' e2 HI2)].
  exists f1, f2. splits; auto.
  - pose proof (il_items _ _ _ _ _ _ HZ) as H. rewrite items_app, !items_stream in H. cbn in H.
    rewrite app_nil_r, Hi in H. exact H.
  - assert (Hf : In (Last (Ok f)) (Z ++ [Last (Ok f)])) by (apply in_app_iff; cbn; auto).
    apply (il_in _ _ _ _ _ HZ) in Hf. rewrite !stream_in in Hf. destruct Hf as [Hf|Hf]; injection Hf; auto.
Qed.
Print Assumptions C36_merge_final.

Theorem C36_merge_error :
  forall (S1 S2 T F E : Type) (P1 : producer S1 T F E) (P2 : producer S2 T F E) s1 s2 xs l1 ys l2 n sched m' out e,
  p_yields P1 s1 xs l1 -> p_yields P2 s2 ys l2 ->
  merge_calls P1 P2 n sched (merge_new s1 s2) = Ret (m', out, Some (Err e)) ->
  (l1 = Err e /\ exists ys1 ys2, ys = ys1 ++ ys2 /\ interleave xs ys1 out) \/
  (l2 = Err e /\ exists xs1 xs2, xs = xs1 ++ xs2 /\ interleave xs1 ys out).
Proof.
  intros S1 S2 T F E P1 P2 s1 s2 xs l1 ys l2 n sched m' out e H1 H2 E1.
  destruct (C36_merge_interleaves _ _ _ _ _ P1 P2 s1 s2 xs l1 ys l2 n sched H1 H2) as (m2 & out2 & l & E2 & Hl).
  rewrite E1 in E2. injection E2 as <- <- <-. destruct Hl as (X & Y & X' & Y' & Z & EX & EY & HZ & Hi & Hn).
  pose proof (il_items _ _ _ _ _ _ HZ) as HI. rewrite items_app in HI. cbn in HI. rewrite app_nil_r, Hi in HI.
  assert (He : In (Last (Err e)) (Z ++ [Last (Err e)])) by (apply in_app_iff; cbn; auto).
  apply (il_in _ _ _ _ _ HZ) in He.
  assert (HX : exists xs1 xs2, xs = xs1 ++ xs2 /\ items X = xs1).
  { destruct (stream_split _ _ _ _ _ _ _ EX) as [[_ ->]|(xs1 & xs2 & -> & ->)].
    - exists xs, []. now rewrite app_nil_r, items_stream.
    - exists xs1, xs2. now rewrite items_map. }
  assert (HY : exists ys1 ys2, ys = ys1 ++ ys2 /\ items Y = ys1).
  { destruct (stream_split _ _ _ _ _ _ _ EY) as [[_ ->]|(ys1 & ys2 & -> & ->)].
    - exists ys, []. now rewrite app_nil_r, items_stream.
    - exists ys1, ys2. now rewrite items_map. }
  assert (Hitem : forall A (zs : list A), ~ In (@Last A F E (Err e)) (map Item zs)).
  { intros A zs H. apply in_map_iff in H. destruct H as (z & H & _). discriminate. }
  destruct He as [He|He]; [left|right].
  - destruct (stream_split _ _ _ _ _ _ _ EX) as [[_ ->]|(xs1 & xs2 & -> & ->)]; [|destruct (Hitem _ _ He)].
    apply stream_in in He. rewrite items_stream in HI. split; [auto|].
    destruct HY as (ys1 & ys2 & -> & HY). rewrite HY in HI. eauto.
  - destruct (stream_split _ _ _ _ _ _ _ EY) as [[_ ->]|(ys1 & ys2 & -> & ->)]; [|destruct (Hitem _ _ He)].
    apply stream_in in He. rewrite items_stream in HI. split; [auto|].
    destruct HX as (xs1 & xs2 & -> & HX). rewrite HX in HI. eauto.
Qed.
Print Assumptions C36_merge_error.

(** *** C37. [guarded P] panics when it is used after its end; merging two of them never panics. *)

Theorem C37_merge_respects_ends :
  forall (S1 S2 T F E : Type) (P1 : producer S1 T F E) (P2 : producer S2 T F E) s1 s2 n sched,
  p_total P1 -> p_total P2 ->
  exists m' out l, merge_calls (guarded P1) (guarded P2) n sched (merge_new (Some s1) (Some s2)) = Ret (m', out, l).
Proof.
  intros S1 S2 T F E P1 P2 s1 s2 n sched H1 H2. apply merge_calls_live; auto.
  unfold merge_live. cbn. splits; auto. left. discriminate.
Qed.
Print Assumptions C37_merge_respects_ends.

(** Progress: a poll with a present future ready does something. *)
Theorem C37_merge_step_progress :
  forall (S1 S2 T F E : Type) (P1 : producer S1 T F E) (P2 : producer S2 T F E) c m m' p,
  merge_step P1 P2 c m = Ret (m', p) ->
  (produce_future1 m <> None /\ ready1 c = true \/ produce_future2 m <> None /\ ready2 c = true) ->
  p <> Pending.
Proof.
  intros S1 S2 T F E P1 P2 c [[s1|] [s2|]] m' p H Hr; unfold merge_step, merge_left, merge_right in H; cbn in H, Hr;
    destruct (second_first c), (ready1 c), (ready2 c);
    try (destruct Hr as [[? ?]|[? ?]]; congruence);
    try (destruct (p_produce P1 s1) as [[? [[?|?]|?]]| |]; cbn in H; congruence);
    try (destruct (p_produce P2 s2) as [[? [[?|?]|?]]| |]; cbn in H; congruence).
Qed.
Print Assumptions C37_merge_step_progress.

(** Two polls with everything ready complete a call; enough of them reach the end. *)
Theorem C37_merge_completes :
  forall (S1 S2 T F E : Type) (P1 : producer S1 T F E) (P2 : producer S2 T F E) s1 s2 xs l1 ys l2 n sched,
  p_yields P1 s1 xs l1 -> p_yields P2 s2 ys l2 ->
  length xs + length ys + 2 <= n -> 2 * n <= rounds sched ->
  exists m' out l, merge_calls P1 P2 n sched (merge_new s1 s2) = Ret (m', out, Some l).
Proof.
  intros S1 S2 T F E P1 P2 s1 s2 xs l1 ys l2 n sched H1 H2 Hn Hr.
  eapply merge_calls_complete; [eapply merge_new_inv; eauto| |exact Hr].
  unfold stream. rewrite !app_length, !map_length. cbn. lia.
Qed.
Print Assumptions C37_merge_completes.

(** *** Examples *)

(** Produces [n], .., 1 and then the last value. *)
Definition countdown (l : res nat nat) : producer nat nat nat nat :=
  mk_producer (fun n => match n with
    | 0 => Ret (0, match l with Ok f => Ok (inr f) | Err e => Err e end)
    | S m => Ret (m, Ok (inl n))
    end).

Lemma countdown_total : forall l, p_total (countdown l).
Proof. intros l [|n]; cbn; eauto. Qed.

Lemma countdown_yields : forall l n, p_yields (countdown l) n (rev (seq 1 n)) l.
Proof.
  intros l. induction n as [|n IH].
  - destruct l as [f|e]; [eapply p_yields_final|eapply p_yields_error]; reflexivity.
  - rewrite seq_S, rev_app_distr. cbn. eapply p_yields_item; [reflexivity|exact IH].
Qed.

Definition wait : choice := mk_choice false false false.
Definition go1 : choice := mk_choice false true false.
Definition go2 : choice := mk_choice false false true.
Definition both : choice := mk_choice false true true.
Definition both' : choice := mk_choice true true true.

(** The second ends first: the final value is that of the first. *)
Example C36_example_final :
  merge_calls (countdown (Ok 10)) (countdown (Ok 20)) 9 [both; wait; both'; both'; go1; wait; go2; go1; go1] (merge_new 2 1)
  = Ret (mk_merge (Some 0) None, [2; 1; 1], Some (Ok 10)).
Proof. reflexivity. Qed.

(** The first ends first: the final value is that of the second. *)
Example C36_example_final_second :
  merge_calls (countdown (Ok 10)) (countdown (Ok 20)) 9 [go1; go1; go1; go1; go2; go2] (merge_new 2 1)
  = Ret (mk_merge None (Some 0), [2; 1; 1], Some (Ok 20)).
Proof. reflexivity. Qed.

Example C36_example_error :
  merge_calls (countdown (Ok 10)) (countdown (Err 77)) 9 [both; both'; both'; both'] (merge_new 3 1)
  = Ret (mk_merge (Some 2) (Some 0), [3; 1], Some (Err 77)).
Proof. reflexivity. Qed.

Example C36_example_applies : forall n sched,
  exists m' out l, merge_calls (countdown (Ok 10)) (countdown (Err 77)) n sched (merge_new 3 1) = Ret (m', out, l) /\
  match l with
  | Some (Ok f) => False
  | Some (Err e) => e = 77
  | None => True
  end.
Proof.
  intros n sched.
  destruct (C36_merge_interleaves _ _ _ _ _ _ _ 3 1 _ _ _ _ n sched (countdown_yields (Ok 10) 3) (countdown_yields (Err 77) 1))
    as (m' & out & l & E1 & _).
  exists m', out, l. split; [exact E1|]. destruct l as [[f|e]|]; auto.
  - destruct (C36_merge_final _ _ _ _ _ _ _ _ _ _ _ _ _ _ _ _ _ _ (countdown_yields (Ok 10) 3) (countdown_yields (Err 77) 1) E1)
      as (f1 & f2 & _ & H & _). discriminate.
  - destruct (C36_merge_error _ _ _ _ _ _ _ _ _ _ _ _ _ _ _ _ _ _ (countdown_yields (Ok 10) 3) (countdown_yields (Err 77) 1) E1)
      as [[H _]|[H _]]; congruence.
Qed.

(** The caller must stop at the end: one more call uses the ended producer again. *)
Example C37_example_after_end :
  exists m', merge_calls (guarded (countdown (Ok 10))) (guarded (countdown (Ok 20))) 9
    [both; both'; both'; both; both] (merge_new (Some 1) (Some 1)) = Ret (m', [1; 1], Some (Ok 10)) /\
    merge_produce (guarded (countdown (Ok 10))) (guarded (countdown (Ok 20))) [both] m' = Panic.
Proof. eexists. split; reflexivity. Qed.

Example C37_example : forall sched, exists m' out l,
  merge_calls (guarded (countdown (Ok 10))) (guarded (countdown (Err 1))) 9 sched (merge_new (Some 3) (Some 3)) = Ret (m', out, l).
Proof. intros. apply C37_merge_respects_ends; apply countdown_total. Qed.

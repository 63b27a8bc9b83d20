(** Property C80: Merge poll by poll, and dropped futures. *)
From Coq Require Import Bool List Arith Lia.
From Verif Require Import Prelude ListFacts Traits MergeModel MergeSpec PropMerge AsyncModel AsyncSpec AsyncProofs AsyncMergeModel AsyncMergeSpec AsyncMergeProofs.
Import ListNotations.

(** Arbitrary asynchronous producers, a caller that polls the futures of [produce] and drops them unfinished whenever it
    likes, arbitrary choices of [select]: there is a schedule under which [MergeModel], over the producers that run to
    completion, gives the same. So what C36 and C37 say about Merge holds poll by poll. *)
Theorem C80_merge_refines :
  forall (S1 S2 T F E : Type) (P1 : a_producer S1 T F E) (P2 : a_producer S2 T F E) s1 s2 fuel acts n,
  2 <= fuel -> length acts <= n ->
  exists sched, seen (merge_session P1 P2 fuel acts AtStart (a_merge_new P1 P2 s1 s2)) =
    seen (merge_calls (blocking_producer P1) (blocking_producer P2) n sched (merge_new s1 s2)).
Proof. intros. apply session_sim; auto using new_sim. exact Logic.I. Qed.
Print Assumptions C80_merge_refines.

(** In particular, no item is lost, whatever the caller drops. Nothing is assumed about what a producer does when its
    future is dropped, or when it is called after its end. *)
Theorem C80_merge_interleaves :
  forall (S1 S2 T F E : Type) (P1 : a_producer S1 T F E) (P2 : a_producer S2 T F E) s1 s2 xs l1 n1 ys l2 n2 fuel acts,
  2 <= fuel -> a_yields P1 s1 xs l1 n1 -> a_yields P2 s2 ys l2 n2 ->
  exists m' out l, merge_session P1 P2 fuel acts AtStart (a_merge_new P1 P2 s1 s2) = Ret (m', out, l) /\
  match l with
  | Some (Ok f) => exists Z, interleave (stream xs l1) (stream ys l2) (Z ++ [Last (Ok f)]) /\
      items Z = out /\ no_error Z
  | Some (Err e) => exists X Y X' Y' Z, stream xs l1 = X ++ X' /\ stream ys l2 = Y ++ Y' /\
      interleave X Y (Z ++ [Last (Err e)]) /\ items Z = out /\ no_error Z
  | None => exists X Y X' Y' Z, stream xs l1 = X ++ X' /\ stream ys l2 = Y ++ Y' /\
      interleave X Y Z /\ items Z = out /\ no_error Z
  end.
Proof.
  intros S1 S2 T F E P1 P2 s1 s2 xs l1 n1 ys l2 n2 fuel acts Hf H1 H2.
  destruct (C80_merge_refines S1 S2 T F E P1 P2 s1 s2 fuel acts (length acts) Hf (le_n _)) as [sched Hs].
  destruct (C36_merge_interleaves _ _ _ _ _ (blocking_producer P1) (blocking_producer P2) s1 s2 xs l1 ys l2 (length acts) sched)
    as (m0 & out & l & E0 & Hl); eauto using a_yields_blocking.
  rewrite E0 in Hs.
  destruct (merge_session P1 P2 fuel acts AtStart (a_merge_new P1 P2 s1 s2)) as [[[m' out'] l']| |]; try discriminate.
  injection Hs as -> ->. exists m', out, l. auto.
Qed.
Print Assumptions C80_merge_interleaves.

(** Dropping the future of [produce] and calling [produce] again is the same as polling on. *)
Theorem C80_merge_drop :
  forall (S1 S2 T F E : Type) (P1 : a_producer S1 T F E) (P2 : a_producer S2 T F E) m fuel acts,
  merge_session P1 P2 fuel acts AtStart m =
  merge_session P1 P2 fuel (map (fun act => mk_merge_act false (order act)) acts) AtStart m.
Proof. intros. apply session_drop; exact Logic.I. Qed.
Print Assumptions C80_merge_drop.

(** Merge waits for both producers at the same time: until the end it is polled once for each item, once more, and as often
    in vain as the producer that makes more futile polls. *)
Theorem C80_merge_polls :
  forall (S1 S2 T F E : Type) (P1 : a_producer S1 T F E) (P2 : a_producer S2 T F E) s1 s2 xs l1 n1 ys l2 n2 fuel acts,
  2 <= fuel -> a_yields P1 s1 xs l1 n1 -> a_yields P2 s2 ys l2 n2 ->
  length xs + length ys + Nat.max n1 n2 + 1 <= length acts ->
  exists m' out l, merge_session P1 P2 fuel acts AtStart (a_merge_new P1 P2 s1 s2) = Ret (m', out, Some l).
Proof.
  intros S1 S2 T F E P1 P2 s1 s2 xs l1 n1 ys l2 n2 fuel acts Hf H1 H2 Hl.
  apply session_takes with (k := length xs + length ys) (n := Nat.max n1 n2); auto; [exact Logic.I|eapply new_takes; eauto|lia].
Qed.
Print Assumptions C80_merge_polls.

(** Merge never waits without having had the waker called, unless a producer that it waits for does; while it waits for both, one of
    them is enough. *)
Theorem C80_merge_wakes :
  forall (S1 S2 T F E : Type) (P1 : a_producer S1 T F E) (P2 : a_producer S2 T F E) (Q1 Q2 : bool -> Prop) s1 s2 fuel acts,
  producer_pending Q1 P1 -> producer_pending Q2 P2 ->
  Forall (woken_by Q1 Q2) (merge_wakes P1 P2 fuel acts AtStart (a_merge_new P1 P2 s1 s2)).
Proof. intros. apply session_wakes; auto using new_wakes. exact Logic.I. Qed.
Print Assumptions C80_merge_wakes.
Corollary C80_merge_wakes_both :
  forall (S1 S2 T F E : Type) (P1 : a_producer S1 T F E) (P2 : a_producer S2 T F E) (Q : bool -> Prop) s1 s2 fuel acts,
  producer_pending Q P1 -> producer_pending Q P2 ->
  Forall Q (map snd (merge_wakes P1 P2 fuel acts AtStart (a_merge_new P1 P2 s1 s2))).
Proof.
  intros S1 S2 T F E P1 P2 Q s1 s2 fuel acts H1 H2. apply Forall_map. eapply Forall_impl; [|apply (C80_merge_wakes _ _ _ _ _ P1 P2 Q Q s1 s2 fuel acts H1 H2)].
  intros [[| | |] w]; cbn; try tauto. intros (w1 & w2 & Hw1 & Hw2 & ->). destruct w1; auto.
Qed.
Print Assumptions C80_merge_wakes_both.

(** *** Examples *)

(** Takes the next item out of a list, is pending as often as that item says, and returns it. Whoever drops its future
    loses the item. *)
Fixpoint wait_then {S X} (n : nat) (x : X) : fut S X :=
  match n with
  | 0 => ret x
  | Datatypes.S n => Fut (fun s => Ret (s, Pending true (wait_then n x)))
  end.
Definition hasty (l : res nat nat) : a_producer (list nat) nat nat nat :=
  mk_a_producer (
    let! xs := get in
    match xs with
    | [] => ret (match l with Ok f => Ok (inr f) | Err e => Err e end)
    | x :: xs => let! _ := put xs in wait_then x (Ok (inl x))
    end).

Lemma wait_then_run : forall S X n (x : X) (s : S), run (wait_then n x) s = Ret (s, x) /\ pendings (wait_then n x) s = n.
Proof. intros S X n x s. induction n as [|n [IH1 IH2]]; cbn; auto. Qed.

Lemma hasty_yields : forall xs l, a_yields (hasty l) xs xs l (list_sum xs).
Proof.
  intros xs l. induction xs as [|x xs IH].
  - destruct l as [f|e]; [eapply (@a_yields_final _ _ _ _ (hasty (Ok f)) [] [])|eapply (@a_yields_error _ _ _ _ (hasty (Err e)) [] [])]; reflexivity.
  - assert (E1 : run (ap_produce (hasty l)) (x :: xs) = Ret (xs, Ok (inl x)) /\ pendings (ap_produce (hasty l)) (x :: xs) = x).
    { cbn. destruct x as [|x]; cbn; [auto|].
      split; [rewrite (proj1 (wait_then_run _ _ x _ xs))|rewrite (proj2 (wait_then_run _ _ x _ xs))]; reflexivity. }
    destruct E1 as [E1 E2].
    replace (list_sum (x :: xs)) with (pendings (ap_produce (hasty l)) (x :: xs) + list_sum xs) by now rewrite E2.
    eapply a_yields_item; eauto.
Qed.

Lemma wait_then_wakes : forall S X n (x : X), @pending_only S X (eq true) (wait_then n x).
Proof. intros S X n x. induction n as [|n IH]; cbn; auto. Qed.

Lemma hasty_wakes : forall l, producer_pending (eq true) (hasty l).
Proof. intros l [|x xs]; cbn; auto. destruct x as [|x]; cbn; auto using wait_then_wakes. Qed.

(** A caller that drops every unfinished future. *)
Definition impatient (n : nat) : list merge_act := repeat (mk_merge_act true false) n.

(** Used directly, the producer loses the items of dropped futures. *)
Example hasty_drops :
  (let* (s, _) := polls 1 (ap_produce (hasty (Ok 7))) [2; 1; 0] in run (ap_produce (hasty (Ok 7))) s) = Ret ([0], Ok (inl 1)).
Proof. reflexivity. Qed.

(** Behind Merge, it does not; items come as soon as they are there, in the fewest polls that the theorem allows for. *)
Example C80_merge_example :
  seen (merge_session (hasty (Ok 7)) (hasty (Ok 8)) 2 (impatient 9) AtStart (a_merge_new (hasty (Ok 7)) (hasty (Ok 8)) [3; 0] [1; 1; 1])) =
    Ret ([1; 3; 0; 1; 1], Some (Ok 8)) /\
  seen (merge_session (hasty (Ok 7)) (hasty (Ok 8)) 2 (impatient 8) AtStart (a_merge_new (hasty (Ok 7)) (hasty (Ok 8)) [3; 0] [1; 1; 1])) =
    Ret ([1; 3; 0; 1; 1], None).
Proof. split; reflexivity. Qed.

Example C80_merge_instance :
  exists m' out l, merge_session (hasty (Ok 7)) (hasty (Err 8)) 2 (impatient 9) AtStart (a_merge_new (hasty (Ok 7)) (hasty (Err 8)) [3; 0] [1; 1; 1])
    = Ret (m', out, Some l).
Proof. eapply C80_merge_polls; [lia|apply hasty_yields|apply hasty_yields|cbn; lia]. Qed.

Example C80_merge_wakes_example :
  merge_wakes (hasty (Ok 7)) (hasty (Ok 8)) 2 (impatient 9) AtStart (a_merge_new (hasty (Ok 7)) (hasty (Ok 8)) [3; 0] [1; 1; 1])
    = [(AtSelect, true); (AtSelect, true); (AtSecond, true)].
Proof. reflexivity. Qed.


(** The first producer never calls the waker; while both are waited for, the second one does. *)
Definition sleepy : a_producer nat nat nat nat :=
  mk_a_producer (let! n := get in match n with 0 => ret (Ok (inr 7)) | S n => let! _ := put n in Fut (fun s => Ret (s, Pending false (ret (Ok (inl n))))) end).
Example C80_merge_sleepy_example :
  producer_pending (eq false) sleepy /\ producer_pending (eq true) (hasty (Ok 8)) /\
  merge_wakes sleepy (hasty (Ok 8)) 2 (mk_merge_act false false :: mk_merge_act false true :: repeat (mk_merge_act true false) 7) AtStart
    (a_merge_new sleepy (hasty (Ok 8)) 3 [1]) = [(AtSelect, true); (AtFirst, false)].
Proof. split; [|split; [apply hasty_wakes|reflexivity]]. intros [|n]; cbn; auto. Qed.

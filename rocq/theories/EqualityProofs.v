(** Proofs about the comparisons of test objects. *)
From Coq Require Import Bool List Arith Lia.
From Verif Require Import Prelude ListFacts Traits Contracts ContractFacts BasicModel BasicSpec BasicProofs
  AdaptorModel PublicModel PublicSpec PublicProofs EqualityModel EqualitySpec.
Import ListNotations.

Lemma slice_eq_decides : forall X (eq : X -> X -> bool), decides eq -> decides (slice_eq eq).
Proof.
  intros X eq H xs. induction xs as [|x xs IH]; intros [|y ys]; cbn; split; try congruence; auto.
  - rewrite andb_true_iff. intros [A B]. apply H in A. apply IH in B. congruence.
  - intros A. inversion A; subst. rewrite andb_true_iff. split; [now apply H|now apply IH].
Qed.

Lemma option_eq_decides : forall X (eq : X -> X -> bool), decides eq -> decides (option_eq eq).
Proof.
  intros X eq H [x|] [y|]; cbn; split; try congruence; auto.
  - intros A. apply H in A. congruence.
  - intros A. inversion A. now apply H.
Qed.

Lemma result_eq_decides : forall X Y (eq_x : X -> X -> bool) (eq_y : Y -> Y -> bool), decides eq_x -> decides eq_y -> decides (result_eq eq_x eq_y).
Proof.
  intros X Y ex ey Hx Hy [x|x] [y|y]; cbn; split; try congruence; intros A.
  - apply Hx in A. congruence.
  - inversion A. now apply Hx.
  - apply Hy in A. congruence.
  - inversion A. now apply Hy.
Qed.

Lemma slice_eq_equivalence : forall X (eq : X -> X -> bool), equivalence eq -> equivalence (slice_eq eq).
Proof.
  intros X eq (R & S & T). split; [|split].
  - induction x as [|x xs IH]; cbn; [reflexivity|]. now rewrite R, IH.
  - induction x as [|x xs IH]; intros [|y ys]; cbn; try congruence. rewrite !andb_true_iff. intros [A B]. split; auto.
  - induction x as [|x xs IH]; intros [|y ys] [|z zs]; cbn; try congruence. rewrite !andb_true_iff. intros [A B] [C D]. split; eauto.
Qed.

Lemma option_eq_equivalence : forall X (eq : X -> X -> bool), equivalence eq -> equivalence (option_eq eq).
Proof.
  intros X eq (R & S & T). split; [|split].
  - intros [x|]; cbn; auto.
  - intros [x|] [y|]; cbn; auto.
  - intros [x|] [y|] [z|]; cbn; try congruence; eauto.
Qed.

Lemma result_eq_equivalence : forall X Y (eq_x : X -> X -> bool) (eq_y : Y -> Y -> bool),
  equivalence eq_x -> equivalence eq_y -> equivalence (result_eq eq_x eq_y).
Proof.
  intros X Y ex ey (R & S & T) (R' & S' & T'). split; [|split].
  - intros [x|x]; cbn; auto.
  - intros [x|x] [y|y]; cbn; auto.
  - intros [x|x] [y|y] [z|z]; cbn; try congruence; eauto.
Qed.

(** ** The slice of a producer stays the same *)
Section Slice.
  Context {T F E : Type}.
  Notation state := (test_producer_state T F E).
  Notation slice s := (fs_slice (tp_inner s)).

  Lemma yield_slice : forall (s s' : state), tp_maybe_yield s = Ret s' -> slice s' = slice s.
  Proof. intros s s' H. unfold tp_maybe_yield in H. destruct (maybe_yield (tp_yielder s)); inversion H; subst. reflexivity. Qed.

  Lemma take_last_slice : forall (s s' : state) l, tp_take_last s = Ret (s', l) -> slice s' = slice s.
  Proof. intros s s' l H. unfold tp_take_last in H. destruct (expect (tp_last s)); inversion H; subst. reflexivity. Qed.

  Lemma fs_produce_slice : forall (i i' : from_slice T) r, from_slice_produce i = Ret (i', r) -> fs_slice i' = fs_slice i.
  Proof.
    intros i i' r H. unfold from_slice_produce in H. destruct (length (fs_slice i) =? fs_offset i); [inversion H; subst; reflexivity|].
    destruct (index (fs_offset i) (fs_slice i)); inversion H; subst. reflexivity.
  Qed.

  Lemma fs_expose_slice : forall (i i' : from_slice T) r, from_slice_expose i = Ret (i', r) -> fs_slice i' = fs_slice i.
  Proof.
    intros i i' r H. unfold from_slice_expose in H. destruct (slice_from (fs_offset i) (fs_slice i)) as [[|y ys]| |]; inversion H; subst; reflexivity.
  Qed.

  Lemma fs_consider_slice : forall n (i i' : from_slice T) r, from_slice_consider n i = Ret (i', r) -> fs_slice i' = fs_slice i.
  Proof. intros n i i' r H. unfold from_slice_consider in H. inversion H; subst. reflexivity. Qed.

  Lemma check_error_slice : forall (s s' : state) e, tp_check_error s = Ret (s', e) -> slice s' = slice s.
  Proof.
    intros s s' e H. unfold tp_check_error in H. destruct (from_slice_not_yet_produced (tp_inner s)) as [[|y ys]| |]; try discriminate.
    - destruct (expect (tp_last s)) as [[l|l]| |]; inversion H; subst; reflexivity.
    - inversion H; subst; reflexivity.
  Qed.

  Lemma tp_produce_slice : forall (s s' : state) r, test_producer_produce s = Ret (s', r) -> slice s' = slice s.
  Proof.
    intros s s' r H. unfold test_producer_produce in H. destruct (tp_maybe_yield s) as [s1| |] eqn:E1; try discriminate. cbn [bind] in H.
    rewrite <- (yield_slice _ _ E1). destruct (from_slice_not_yet_produced (tp_inner s1)) as [[|y ys]| |]; try discriminate; cbn [bind] in H.
    - destruct (tp_take_last s1) as [[s2 l]| |] eqn:E2; try discriminate. cbn [bind] in H. rewrite <- (take_last_slice _ _ _ E2).
      destruct l; inversion H; subst; reflexivity.
    - destruct (from_slice_produce (tp_inner s1)) as [[i r0]| |] eqn:E2; try discriminate. cbn [bind] in H.
      destruct (unwrap_left r0); inversion H; subst. cbn. exact (fs_produce_slice _ _ _ E2).
  Qed.

  Lemma tp_slurp_slice : forall (s s' : state) r, test_producer_slurp s = Ret (s', r) -> slice s' = slice s.
  Proof.
    intros s s' r H. unfold test_producer_slurp in H. destruct (tp_maybe_yield s) as [s1| |] eqn:E1; try discriminate. cbn [bind] in H.
    destruct (tp_check_error s1) as [[s2 e]| |] eqn:E2; try discriminate. cbn [bind] in H.
    rewrite <- (yield_slice _ _ E1), <- (check_error_slice _ _ _ E2). destruct e; inversion H; subst; reflexivity.
  Qed.

  Lemma tp_expose_slice : forall (s s' : state) r, test_producer_expose s = Ret (s', r) -> slice s' = slice s.
  Proof.
    intros s s' r H. unfold test_producer_expose in H. destruct (tp_maybe_yield s) as [s1| |] eqn:E1; try discriminate. cbn [bind] in H.
    rewrite <- (yield_slice _ _ E1). destruct (from_slice_not_yet_produced (tp_inner s1)) as [[|y ys]| |]; try discriminate; cbn [bind] in H.
    - destruct (tp_take_last s1) as [[s2 l]| |] eqn:E2; try discriminate. cbn [bind] in H. rewrite <- (take_last_slice _ _ _ E2).
      destruct l; inversion H; subst; reflexivity.
    - destruct (tp_sizes s1) as [sz|].
      + destruct (next_size sz) as [[m sz']| |]; try discriminate. cbn [bind] in H.
        destruct (from_slice_expose (tp_inner s1)) as [[i r0]| |] eqn:E2; try discriminate. cbn [bind] in H.
        destruct (unwrap_left r0) as [items| |]; try discriminate. cbn [bind] in H.
        destruct (slice_to (Nat.min (length items) m) items); inversion H; subst. cbn. exact (fs_expose_slice _ _ _ E2).
      + destruct (from_slice_expose (tp_inner s1)) as [[i r0]| |] eqn:E2; try discriminate. cbn [bind] in H.
        destruct (unwrap_left r0); inversion H; subst. cbn. exact (fs_expose_slice _ _ _ E2).
  Qed.

  Lemma tp_consider_slice : forall n (s s' : state) r, test_producer_consider n s = Ret (s', r) -> slice s' = slice s.
  Proof.
    intros n s s' r H. unfold test_producer_consider in H. destruct (tp_maybe_yield s) as [s1| |] eqn:E1; try discriminate. cbn [bind] in H.
    destruct (tp_check_error s1) as [[s2 e]| |] eqn:E2; try discriminate. cbn [bind] in H.
    rewrite <- (yield_slice _ _ E1), <- (check_error_slice _ _ _ E2). destruct e; [inversion H; subst; reflexivity|].
    destruct (from_slice_consider n (tp_inner s2)) as [[i r0]| |] eqn:E3; inversion H; subst. cbn. exact (fs_consider_slice _ _ _ _ E3).
  Qed.

  Lemma tp_do_slice : forall o (s s' : state) r, p_do (@test_producer T F E) o s = Ret (s', r) -> slice s' = slice s.
  Proof.
    intros o s s' r H. destruct o as [| | |n|buf]; cbn [p_do] in H.
    - change (p_produce test_producer s) with (test_producer_produce s) in H. destruct (test_producer_produce s) as [[s1 r1]| |] eqn:E1; inversion H; subst. exact (tp_produce_slice _ _ _ E1).
    - change (p_slurp test_producer s) with (test_producer_slurp s) in H. destruct (test_producer_slurp s) as [[s1 r1]| |] eqn:E1; inversion H; subst. exact (tp_slurp_slice _ _ _ E1).
    - change (p_expose test_producer s) with (test_producer_expose s) in H. destruct (test_producer_expose s) as [[s1 r1]| |] eqn:E1; inversion H; subst. exact (tp_expose_slice _ _ _ E1).
    - change (p_consider test_producer n s) with (test_producer_consider n s) in H. destruct (test_producer_consider n s) as [[s1 r1]| |] eqn:E1; inversion H; subst. exact (tp_consider_slice _ _ _ _ E1).
    - change (p_bulk_produce test_producer buf s) with (default_bulk_produce (@test_producer_expose T F E) test_producer_consider buf s) in H. unfold default_bulk_produce in H. destruct (test_producer_expose s) as [[s1 r1]| |] eqn:E1; try discriminate.
      cbn [bind] in H. rewrite <- (tp_expose_slice _ _ _ E1). destruct r1 as [[ys|f]|e]; [|inversion H; subst; reflexivity|inversion H; subst; reflexivity].
      destruct (test_producer_consider (Nat.min (length ys) (length buf)) s1) as [[s2 r2]| |] eqn:E2; try discriminate. cbn [bind] in H.
      rewrite <- (tp_consider_slice _ _ _ _ E2). destruct r2 as [[]|e]; inversion H; subst; reflexivity.
  Qed.

  Lemma tp_history_slice : forall s a h s' a', p_history (@test_producer T F E) s a h s' a' -> slice s' = slice s.
  Proof.
    intros s a h s' a' H. induction H as [s0 a0|s0 a0 o s1 r a1 h s2 a2 HP HD HA HH IH]; [reflexivity|].
    rewrite IH. exact (tp_do_slice _ _ _ _ HD).
  Qed.
End Slice.

Lemma producer_data : forall T F E checks (items : list T) (last : res F E) sizes pattern h s a,
  match sizes with Some l => Forall (fun n => 1 <= n) l | None => True end ->
  p_history (public_producer checks (nested_test_producer checks)) (invariant_new (nested_tp_build items last sizes pattern)) (PActive items last 0) h s a ->
  public_test_producer_into_data s = (items, match p_last h with None => Some last | Some _ => None end).
Proof.
  intros T F E checks items last sizes pattern h s a Hs H.
  assert (H' : p_history (@test_producer T F E) (test_producer_build items last sizes pattern) (PActive items last 0) h (tp_erase (inv_inner s)) a).
  { apply (@public_test_producer_history_iff T F E checks items last sizes pattern h _ a Hs). exists s. split; [exact H|reflexivity]. }
  pose proof (tp_history_slice _ _ _ _ _ H') as Hd. destruct (@tp_history T F E items last sizes pattern h _ _ Hs H') as (_ & _ & Hl & _).
  unfold public_test_producer_into_data. cbn in Hd, Hl. now rewrite Hd, Hl.
Qed.

Lemma producer_eq : forall T F E eq_t eq_f eq_e checks1 checks2
    (items1 items2 : list T) (last1 last2 : res F E) sizes1 sizes2 pattern1 pattern2 h1 h2 s1 s2 a1 a2,
  decides eq_t -> decides eq_f -> decides eq_e ->
  match sizes1 with Some l => Forall (fun n => 1 <= n) l | None => True end ->
  match sizes2 with Some l => Forall (fun n => 1 <= n) l | None => True end ->
  p_history (public_producer checks1 (nested_test_producer checks1)) (invariant_new (nested_tp_build items1 last1 sizes1 pattern1))
    (PActive items1 last1 0) h1 s1 a1 ->
  p_history (public_producer checks2 (nested_test_producer checks2)) (invariant_new (nested_tp_build items2 last2 sizes2 pattern2))
    (PActive items2 last2 0) h2 s2 a2 ->
  (public_test_producer_eq eq_t eq_f eq_e s1 s2 = true <->
   items1 = items2 /\ match p_last h1, p_last h2 with None, None => last1 = last2 | Some _, Some _ => True | _, _ => False end).
Proof.
  intros T F E et ef ee c1 c2 i1 i2 l1 l2 z1 z2 p1 p2 h1 h2 s1 s2 a1 a2 Dt Df De Z1 Z2 H1 H2.
  pose proof (producer_data _ _ _ _ _ _ _ _ _ _ _ Z1 H1) as D1. pose proof (producer_data _ _ _ _ _ _ _ _ _ _ _ Z2 H2) as D2.
  unfold public_test_producer_into_data in D1, D2. unfold public_test_producer_eq.
  inversion D1 as [[A1 B1]]. inversion D2 as [[A2 B2]]. rewrite A1, A2, B1, B2.
  assert (Dl : forall a b, option_eq (result_eq ef ee) a b = true <-> a = b) by exact (option_eq_decides _ _ (result_eq_decides _ _ _ _ Df De)).
  rewrite andb_true_iff, (slice_eq_decides _ _ Dt i1 i2), Dl.
  destruct (p_last h1), (p_last h2); (split; [intros [-> B]; split; [reflexivity|]; try congruence; exact Logic.I|intros [-> B]; split; [reflexivity|]; try contradiction; congruence]).
Qed.

Lemma consumer_state : forall T F E checks (d : T) (e : E) n sizes pattern (h : list (cop T F * cans E)) s x,
  match sizes with Some l => Forall (fun n => 1 <= n) l | None => True end ->
  c_history (public_consumer checks (nested_test_consumer checks d)) (failing_machine T F e)
    (invariant_new (nested_tc_build e n sizes pattern)) (CActive (mk_tstate [] None n false) 0 []) h s x ->
  public_into_vec_as_ref (ntc_inner (inv_inner s)) = Ret (c_consumed [] h) /\
  ntc_fin (inv_inner s) = c_closed h /\ ntc_error (inv_inner s) = (if c_failed h then None else Some e).
Proof.
  intros T F E checks d e n sizes pattern h s x Hs H.
  assert (H' : c_history (@test_consumer T F E d) (failing_machine T F e) (test_consumer_build e n sizes pattern)
      (CActive (mk_tstate [] None n false) 0 []) h (tc_erase (inv_inner s)) x).
  { apply (@public_test_consumer_history_iff T F E checks d e n sizes pattern h _ x Hs). exists s. split; [exact H|reflexivity]. }
  pose proof (tc_rel_build (F := F) (T := T) e n sizes pattern Hs) as HB.
  pose proof (lawful_c_history (a := CActive (mk_tstate [] None n false) 0 []) d (test_consumer_lawful d e) HB H') as HR.
  destruct (tc_history HB H') as (H1 & H2 & H3 & H4 & H5). cbn in H1, H2, H5.
  pose proof (tc_accessors _ _ _ HR) as HA. unfold t_of in *.
  assert (Hc : match c_closed h with Some f => Some f | None => @None F end = c_closed h) by (destruct (c_closed h); reflexivity).
  destruct x as [a k w|a]; rewrite H1, H3, H5, Hc in HA; destruct HA as (A1 & A2 & A3 & A4 & A5); auto.
Qed.

Lemma consumer_eq : forall T F E eq_t eq_f eq_e checks1 checks2 (d1 d2 : T) (e1 e2 : E) n1 n2 sizes1 sizes2 pattern1 pattern2
    (h1 h2 : list (cop T F * cans E)) s1 s2 x1 x2,
  decides eq_t -> decides eq_f -> decides eq_e ->
  match sizes1 with Some l => Forall (fun n => 1 <= n) l | None => True end ->
  match sizes2 with Some l => Forall (fun n => 1 <= n) l | None => True end ->
  c_history (public_consumer checks1 (nested_test_consumer checks1 d1)) (failing_machine T F e1)
    (invariant_new (nested_tc_build e1 n1 sizes1 pattern1)) (CActive (mk_tstate [] None n1 false) 0 []) h1 s1 x1 ->
  c_history (public_consumer checks2 (nested_test_consumer checks2 d2)) (failing_machine T F e2)
    (invariant_new (nested_tc_build e2 n2 sizes2 pattern2)) (CActive (mk_tstate [] None n2 false) 0 []) h2 s2 x2 ->
  exists b, public_test_consumer_eq eq_t eq_f eq_e s1 s2 = Ret b /\
    (b = true <->
     c_consumed [] h1 = c_consumed [] h2 /\ c_closed h1 = c_closed h2 /\
     match c_failed h1, c_failed h2 with false, false => e1 = e2 | true, true => True | _, _ => False end).
Proof.
  intros T F E et ef ee c1 c2 d1 d2 e1 e2 n1 n2 z1 z2 p1 p2 h1 h2 s1 s2 x1 x2 Dt Df De Z1 Z2 H1 H2.
  destruct (consumer_state _ _ _ _ _ _ _ _ _ _ _ _ Z1 H1) as (A1 & B1 & C1).
  destruct (consumer_state _ _ _ _ _ _ _ _ _ _ _ _ Z2 H2) as (A2 & B2 & C2).
  unfold public_test_consumer_eq. rewrite A1, A2, B1, B2, C1, C2. cbn [bind]. eexists. split; [reflexivity|].
  assert (Dx : forall a b, slice_eq et a b = true <-> a = b) by exact (slice_eq_decides _ _ Dt).
  assert (Dg : forall a b, option_eq ef a b = true <-> a = b) by exact (option_eq_decides _ _ Df).
  assert (Dh : forall a b, option_eq ee a b = true <-> a = b) by exact (option_eq_decides _ _ De).
  rewrite !andb_true_iff, Dx, Dg, Dh.
  destruct (c_failed h1), (c_failed h2); split; intros A; try (destruct A as (A & B & C)); try (destruct A as ((A & B) & C));
    try congruence; try contradiction; repeat split; auto; congruence.
Qed.

Lemma producer_equivalence : forall T F E (eq_t : T -> T -> bool) (eq_f : F -> F -> bool) (eq_e : E -> E -> bool),
  equivalence eq_t -> equivalence eq_f -> equivalence eq_e -> equivalence (public_test_producer_eq eq_t eq_f eq_e).
Proof.
  intros T F E et ef ee Ht Hf He.
  destruct (slice_eq_equivalence _ _ Ht) as (R & S & Tr). destruct (option_eq_equivalence _ _ (result_eq_equivalence _ _ _ _ Hf He)) as (R' & S' & Tr').
  unfold public_test_producer_eq. split; [|split].
  - intros x. now rewrite R, R'.
  - intros x y. rewrite !andb_true_iff. intros [A B]. auto.
  - intros x y z. rewrite !andb_true_iff. intros [A B] [C D]. eauto.
Qed.

Lemma consumer_equivalence : forall T F E (eq_t : T -> T -> bool) (eq_f : F -> F -> bool) (eq_e : E -> E -> bool),
  equivalence eq_t -> equivalence eq_f -> equivalence eq_e ->
  let eq := public_test_consumer_eq eq_t eq_f eq_e in
  (forall x xs, public_into_vec_as_ref (ntc_inner (inv_inner x)) = Ret xs -> eq x x = Ret true) /\
  (forall x y, eq x y = Ret true -> eq y x = Ret true) /\
  (forall x y z, eq x y = Ret true -> eq y z = Ret true -> eq x z = Ret true).
Proof.
  intros T F E et ef ee Ht Hf He. destruct (slice_eq_equivalence _ _ Ht) as (R & S & Tr).
  destruct (option_eq_equivalence _ _ Hf) as (R' & S' & Tr'). destruct (option_eq_equivalence _ _ He) as (R'' & S'' & Tr'').
  unfold public_test_consumer_eq. split; [|split].
  - intros x xs ->. cbn. now rewrite R, R', R''.
  - intros x y H. destruct (public_into_vec_as_ref (ntc_inner (inv_inner x))) as [xs| |]; try discriminate.
    destruct (public_into_vec_as_ref (ntc_inner (inv_inner y))) as [ys| |]; try discriminate. cbn in H |- *.
    inversion H as [H0]. rewrite !andb_true_iff in H0. destruct H0 as ((A & B) & C). now rewrite A, B, C, (S _ _ A), (S' _ _ B), (S'' _ _ C).
  - intros x y z H K. destruct (public_into_vec_as_ref (ntc_inner (inv_inner x))) as [xs| |]; try discriminate.
    destruct (public_into_vec_as_ref (ntc_inner (inv_inner y))) as [ys| |]; try discriminate.
    destruct (public_into_vec_as_ref (ntc_inner (inv_inner z))) as [zs| |]; try discriminate. cbn in H, K |- *.
    inversion H as [H0]. inversion K as [K0]. rewrite !andb_true_iff in H0, K0. destruct H0 as ((A & B) & C), K0 as ((A' & B') & C').
    now rewrite A, B, C, (Tr _ _ _ A A'), (Tr' _ _ _ B B'), (Tr'' _ _ _ C C').
Qed.

(** C83: comparing test objects. *)
From Coq Require Import Bool List Arith.
From Verif Require Import Prelude ListFacts Traits Contracts ContractFacts BasicModel BasicSpec BasicProofs
  AdaptorModel PublicModel PublicSpec PublicProofs EqualityModel EqualitySpec EqualityProofs.
Import ListNotations.

(** *** Producers *)

(** Two test producers, however configured and whatever was called on them, are equal exactly if they are made of the same items, and
    both have their last value still to emit and it is the same one, or both have emitted it. How far they got with the items does not
    matter, nor do the sizes and the patterns. *)
Theorem C83_producer_eq : forall T F E eq_t eq_f eq_e checks1 checks2
    (items1 items2 : list T) (last1 last2 : res F E) sizes1 sizes2 pattern1 pattern2 h1 h2 s1 s2 a1 a2,
  decides eq_t -> decides eq_f -> decides eq_e ->
  match sizes1 with Some l => Forall (fun n => 1 <= n) l | None => True end ->
  match sizes2 with Some l => Forall (fun n => 1 <= n) l | None => True end ->
  p_history (public_producer checks1 (nested_test_producer checks1)) (invariant_new (nested_tp_build items1 last1 sizes1 pattern1))
    (PActive items1 last1 0) h1 s1 a1 ->
  p_history (public_producer checks2 (nested_test_producer checks2)) (invariant_new (nested_tp_build items2 last2 sizes2 pattern2))
    (PActive items2 last2 0) h2 s2 a2 ->
  (public_test_producer_eq eq_t eq_f eq_e s1 s2 = true <->
   items1 = items2 /\ match p_last h1, p_last h2 with None, None => last1 = last2 | Some _, Some _ => True | _, _ => False end).
Proof. exact producer_eq. Qed.
Print Assumptions C83_producer_eq.

(** What [into_data] gives back. *)
Theorem C83_producer_into_data : forall T F E checks (items : list T) (last : res F E) sizes pattern h s a,
  match sizes with Some l => Forall (fun n => 1 <= n) l | None => True end ->
  p_history (public_producer checks (nested_test_producer checks)) (invariant_new (nested_tp_build items last sizes pattern))
    (PActive items last 0) h s a ->
  public_test_producer_into_data s = (items, match p_last h with None => Some last | Some _ => None end).
Proof. exact producer_data. Qed.
Print Assumptions C83_producer_into_data.

Theorem C83_producer_equivalence : forall T F E (eq_t : T -> T -> bool) (eq_f : F -> F -> bool) (eq_e : E -> E -> bool),
  equivalence eq_t -> equivalence eq_f -> equivalence eq_e -> equivalence (public_test_producer_eq eq_t eq_f eq_e).
Proof. exact producer_equivalence. Qed.
Print Assumptions C83_producer_equivalence.

Lemma nat_decides : decides Nat.eqb.
Proof. exact Nat.eqb_eq. Qed.
Lemma nat_equivalence : equivalence Nat.eqb.
Proof.
  split; [exact Nat.eqb_refl|]. split; [intros x y; rewrite !Nat.eqb_eq; congruence|intros x y z; rewrite !Nat.eqb_eq; congruence].
Qed.

(** One has emitted two of three items, the other one none; the configurations differ. *)
Example C83_producer_case :
  exists s1 s2,
    p_history (public_producer true (nested_test_producer true)) (invariant_new (nested_tp_build [1; 2; 3] (@Ok nat nat 9) (Some [2]) None))
      (PActive [1; 2; 3] (Ok 9) 0) [(PExpose, PASlice (Ok (inl [1; 2]))); (PConsider 2, PAUnit (Ok tt))] s1 (PActive [3] (Ok 9) 0) /\
    p_history (public_producer false (nested_test_producer false)) (invariant_new (nested_tp_build [1; 2; 3] (@Ok nat nat 9) None (Some [true])))
      (PActive [1; 2; 3] (Ok 9) 0) [] s2 (PActive [1; 2; 3] (Ok 9) 0) /\
    public_test_producer_eq Nat.eqb Nat.eqb Nat.eqb s1 s2 = true /\
    public_test_producer_into_data s1 = ([1; 2; 3], Some (Ok 9)).
Proof.
  eexists; eexists. split; [run_p|]. split; [run_p|]. split; vm_compute; reflexivity.
Qed.

(** The documentation says that the comparison considers the values that have been or will be emitted. The last value is not considered once
    it has been emitted: a producer that is done is different from the fresh one with the same values, and equal to one with another
    last value. Accordingly [into_data] gives back the last value only if it has not been emitted. *)
Theorem C83_producer_values_refuted :
  exists (items : list nat) (last last' : res nat nat) s s1 s2 h h' a,
    s = invariant_new (nested_tp_build items last None None) /\ last <> last' /\
    p_history (public_producer true (nested_test_producer true)) s (PActive items last 0) h s1 a /\
    p_history (public_producer true (nested_test_producer true)) (invariant_new (nested_tp_build items last' None None))
      (PActive items last' 0) h' s2 a /\
    public_test_producer_eq Nat.eqb Nat.eqb Nat.eqb s s1 = false /\
    public_test_producer_eq Nat.eqb Nat.eqb Nat.eqb s1 s2 = true /\
    public_test_producer_into_data s1 = (items, None).
Proof.
  exists [], (Ok 1), (Err 2). eexists; eexists; eexists. exists [(PProduce, PAItem (Ok (inr 1)))], [(PProduce, PAItem (Err 2))], PEnded.
  split; [reflexivity|]. split; [discriminate|]. split; [run_p|]. split; [run_p|].
  split; [vm_compute; reflexivity|]. split; vm_compute; reflexivity.
Qed.
Print Assumptions C83_producer_values_refuted.

(** *** Consumers *)

(** Test consumers are compared by what they have consumed, the final value they were closed with, and their error, if it has
    not been given out yet. The comparison never panics. *)
Theorem C83_consumer_eq : forall T F E eq_t eq_f eq_e checks1 checks2 (d1 d2 : T) (e1 e2 : E) n1 n2 sizes1 sizes2 pattern1 pattern2
    (h1 h2 : list (cop T F * cans E)) s1 s2 x1 x2,
  decides eq_t -> decides eq_f -> decides eq_e ->
  match sizes1 with Some l => Forall (fun n => 1 <= n) l | None => True end ->
  match sizes2 with Some l => Forall (fun n => 1 <= n) l | None => True end ->
  c_history (public_consumer checks1 (nested_test_consumer checks1 d1)) (failing_machine T F e1)
    (invariant_new (nested_tc_build e1 n1 sizes1 pattern1)) (CActive (mk_tstate [] None n1 false) 0 []) h1 s1 x1 ->
  c_history (public_consumer checks2 (nested_test_consumer checks2 d2)) (failing_machine T F e2)
    (invariant_new (nested_tc_build e2 n2 sizes2 pattern2)) (CActive (mk_tstate [] None n2 false) 0 []) h2 s2 x2 ->
  exists b, public_test_consumer_eq eq_t eq_f eq_e s1 s2 = Ret b /\
    (b = true <->
     c_consumed [] h1 = c_consumed [] h2 /\ c_closed h1 = c_closed h2 /\
     match c_failed h1, c_failed h2 with false, false => e1 = e2 | true, true => True | _, _ => False end).
Proof. exact consumer_eq. Qed.
Print Assumptions C83_consumer_eq.

Theorem C83_consumer_equivalence : forall T F E (eq_t : T -> T -> bool) (eq_f : F -> F -> bool) (eq_e : E -> E -> bool),
  equivalence eq_t -> equivalence eq_f -> equivalence eq_e ->
  let eq := public_test_consumer_eq eq_t eq_f eq_e in
  (forall x xs, public_into_vec_as_ref (ntc_inner (inv_inner x)) = Ret xs -> eq x x = Ret true) /\
  (forall x y, eq x y = Ret true -> eq y x = Ret true) /\
  (forall x y z, eq x y = Ret true -> eq y z = Ret true -> eq x z = Ret true).
Proof. exact consumer_equivalence. Qed.
Print Assumptions C83_consumer_equivalence.

(** One consumed item by item, the other one into an exposed slot of which it used half; then both were closed. The first one still has one
    item to go before it fails, the second one many. *)
Example C83_consumer_case :
  exists s1 s2 x1 x2,
    c_history (public_consumer true (nested_test_consumer true 0)) (failing_machine nat nat 9)
      (invariant_new (nested_tc_build 9 3 None (Some [true]))) (CActive (mk_tstate [] None 3 false) 0 [])
      [(CConsume 5, CAUnit (Ok tt)); (CClose 7, CAUnit (Ok tt))] s1 x1 /\
    c_history (public_consumer true (nested_test_consumer true 0)) (failing_machine nat nat 9)
      (invariant_new (nested_tc_build 9 100 (Some [2]) None)) (CActive (mk_tstate [] None 100 false) 0 [])
      [(CExpose, CASlots (Ok 2)); (CWrite [5; 6], CANone); (CConsumeSlots 1, CAUnit (Ok tt)); (CClose 7, CAUnit (Ok tt))] s2 x2 /\
    public_test_consumer_eq Nat.eqb Nat.eqb Nat.eqb s1 s2 = Ret true.
Proof.
  eexists; eexists; eexists; eexists. split; [run_c|]. split; [run_c|]. vm_compute. reflexivity.
Qed.

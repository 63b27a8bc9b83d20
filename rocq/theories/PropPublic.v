(** Property C74: the exported types, with and without the checks of a test build. *)
From Coq Require Import Bool List Arith.
From Verif Require Import Prelude ListFacts Traits Contracts ContractFacts BasicModel BasicSpec BasicProofs
  AdaptorModel PublicModel PublicSpec PublicProofs.
Import ListNotations.

(** *** C74 *)

(** The exported type around a correct producer has, in either build, exactly the histories of that producer. *)
Theorem C74_exported_producer :
  forall (S T F E : Type) (P : bulk_producer S T F E) R D (checks : bool) s xs l h i a',
  lawful_producer_core P R D ->
  (forall buf s, p_bulk_produce P buf s = default_bulk_produce (p_expose P) (p_consider P) buf s) ->
  lawful_slurp P R D \/ ~ In PSlurp (map fst h) ->
  R s xs l 0 ->
  (p_history P s (PActive xs l 0) h i a' <->
   exists s', p_history (public_producer checks P) (invariant_new s) (PActive xs l 0) h s' a' /\ inv_inner s' = i).
Proof.
  intros S T F E P R D checks s xs l h i a' L HB LS HR. exact (@public_history_iff _ _ _ _ P R D HB checks h s xs l i a' L LS HR).
Qed.
Print Assumptions C74_exported_producer.

Theorem C74_exported_consumer :
  forall (S A T F E : Type) (C : bulk_consumer S T F E) (M : machine A T F E) R D (x0 : T) (checks : bool) s a h i a',
  lawful_consumer_core C M R D ->
  (forall buf s, c_bulk_consume C buf s = default_bulk_consume (c_expose C) (c_write C) (c_consume_slots C) buf s) ->
  R s a 0 [] ->
  (c_history C M s (CActive a 0 []) h i a' <->
   exists s', c_history (public_consumer checks C) M (invariant_new s) (CActive a 0 []) h s' a' /\ inv_inner s' = i).
Proof.
  intros S A T F E C M R D x0 checks s a h i a' L HB HR.
  exact (@publicc_history_iff _ _ _ _ _ C M R D HB x0 checks h s a i a' L HR).
Qed.
Print Assumptions C74_exported_consumer.

(** The exported [FromSlice] and [FromBoxedSlice]. *)
Theorem C74_from_slice :
  forall (T : Type) (checks : bool) (l : list T) (ops : list (pop T)),
  p_conforms (public_producer checks from_slice_producer) ops (public_from_slice_new l) (PActive l (Ok tt) 0).
Proof.
  intros T checks l ops. apply (@public_conforms _ _ _ _ _ fs_rel fs_end).
  - apply from_slice_core.
  - left. apply from_slice_slurp_lawful.
  - apply fs_rel_new.
Qed.
Print Assumptions C74_from_slice.

Theorem C74_from_slice_accessors :
  forall (T : Type) (checks : bool) (l : list T) (h : list (pop T * pans T unit infallible)) s' a',
  p_history (public_producer checks from_slice_producer) (public_from_slice_new l) (PActive l (Ok tt) 0) h s' a' ->
  public_from_slice_offset s' = length (p_emitted [] h) /\
  public_from_slice_produced_so_far s' = Ret (p_emitted [] h) /\
  public_from_slice_not_yet_produced s' = Ret (skipn (length (p_emitted [] h)) l) /\
  p_emitted [] h ++ skipn (length (p_emitted [] h)) l = l.
Proof.
  intros T checks l h s' a' HH.
  destruct (@from_slice_history _ l _ _ _ (@public_history _ _ _ _ (@from_slice_producer T) (fun _ _ => eq_refl) checks _ _ _ _ _ HH))
    as (_ & H1 & H2 & H3 & H4 & _). auto.
Qed.
Print Assumptions C74_from_slice_accessors.

(** The exported [Empty]. *)
Theorem C74_empty :
  forall (T F E : Type) (checks : bool) (fin : F) (ops : list (pop T)),
  p_conforms (public_producer checks (@empty_producer T F E)) ops (public_empty_new fin) (PActive [] (Ok fin) 0).
Proof.
  intros T F E checks fin ops. apply (@public_conforms _ _ _ _ _ empty_rel empty_end).
  - apply empty_core.
  - left. apply empty_slurp_lawful.
  - repeat split. now exists fin.
Qed.
Print Assumptions C74_empty.

(** The exported [IntoVec]. *)
Theorem C74_into_vec :
  forall (T : Type) (checks : bool) (d : T) (v : list T) (ops : list (cop T unit)),
  c_conforms (public_consumer checks (into_vec_consumer d)) (collect_machine T unit infallible) ops
    (public_into_vec_from_vec v) (CActive v 0 []).
Proof.
  intros T checks d v ops. apply (@publicc_conforms _ _ _ _ _ _ _ iv_rel iv_end).
  - apply into_vec_core.
  - apply iv_rel_from_vec.
Qed.
Print Assumptions C74_into_vec.

Theorem C74_into_vec_collects :
  forall (T : Type) (checks : bool) (d : T) (v : list T) (h : list (cop T unit * cans infallible)) s' a',
  c_history (public_consumer checks (into_vec_consumer d)) (collect_machine T unit infallible)
    (public_into_vec_from_vec v) (CActive v 0 []) h s' a' ->
  public_into_vec_as_ref s' = Ret (v ++ c_consumed [] h) /\ public_into_vec_into_vec s' = v ++ c_consumed [] h.
Proof.
  intros T checks d v h s' a' HH.
  exact (@into_vec_history _ d v _ _ _ (@publicc_history _ _ _ _ _ (into_vec_consumer d) _ (fun _ _ => eq_refl) checks _ _ _ _ _ HH)).
Qed.
Print Assumptions C74_into_vec_collects.

(** The exported [TestProducer] contains an exported [FromBoxedSlice] with a checker of its own. That checker never
    objects to a call that the outer one lets through: every list of calls, permitted or not, gets the same
    answers and ends the same way as if it were not there. *)
Theorem C74_test_producer_inner_checker :
  forall (T F E : Type) (checks : bool) (items : list T) (last : res F E) sizes pattern (ops : list (pop T)),
  let run := p_runs (public_producer checks (nested_test_producer checks)) ops
               (invariant_new (nested_tp_build items last sizes pattern)) in
  p_runs (public_producer checks test_producer) ops (invariant_new (test_producer_build items last sizes pattern)) =
  (fst run, end_map (fun s => mk_invariant (tp_erase (inv_inner s)) (inv_active s) (inv_exposed s)) (snd run)).
Proof.
  intros T F E checks items last sizes pattern ops run.
  exact (@p_sim_runs _ _ _ _ _ _ _ _ _ (public_test_producer_sim checks) ops
    (invariant_new (nested_tp_build items last sizes pattern)) (@outer_tp_ok_new _ _ _ _ _ _ _ _)).
Qed.
Print Assumptions C74_test_producer_inner_checker.

Theorem C74_test_producer :
  forall (T F E : Type) (checks : bool) (items : list T) (last : res F E) sizes pattern (ops : list (pop T)),
  match sizes with Some l => Forall (fun n => 1 <= n) l | None => True end ->
  p_conforms (public_producer checks (nested_test_producer checks)) ops
    (invariant_new (nested_tp_build items last sizes pattern)) (PActive items last 0).
Proof. exact public_test_producer_conforms. Qed.
Print Assumptions C74_test_producer.

Theorem C74_test_producer_histories :
  forall (T F E : Type) (checks : bool) (items : list T) (last : res F E) sizes pattern h i a',
  match sizes with Some l => Forall (fun n => 1 <= n) l | None => True end ->
  (p_history (@test_producer T F E) (test_producer_build items last sizes pattern) (PActive items last 0) h i a' <->
   exists s', p_history (public_producer checks (nested_test_producer checks))
     (invariant_new (nested_tp_build items last sizes pattern)) (PActive items last 0) h s' a' /\
     tp_erase (inv_inner s') = i).
Proof. exact public_test_producer_history_iff. Qed.
Print Assumptions C74_test_producer_histories.

(** The same for the exported [TestConsumer], which contains an exported [IntoVec]. *)
Theorem C74_test_consumer_inner_checker :
  forall (T F E : Type) (checks : bool) (d : T) (error : E) n sizes pattern (ops : list (cop T F)),
  let run := c_runs (public_consumer checks (nested_test_consumer checks d)) ops
               (invariant_new (nested_tc_build error n sizes pattern)) in
  c_runs (public_consumer checks (test_consumer d)) ops (invariant_new (test_consumer_build error n sizes pattern)) =
  (fst run, end_map (fun s => mk_invariant (tc_erase (inv_inner s)) (inv_active s) (inv_exposed s)) (snd run)).
Proof.
  intros T F E checks d error n sizes pattern ops run.
  exact (@c_sim_runs _ _ _ _ _ _ _ _ _ (public_test_consumer_sim checks d) ops
    (invariant_new (nested_tc_build error n sizes pattern)) (@outer_tc_ok_new _ _ _ _ _ _ _ _)).
Qed.
Print Assumptions C74_test_consumer_inner_checker.

Theorem C74_test_consumer :
  forall (T F E : Type) (checks : bool) (d : T) (error : E) n sizes pattern (ops : list (cop T F)),
  match sizes with Some l => Forall (fun n => 1 <= n) l | None => True end ->
  c_conforms (public_consumer checks (nested_test_consumer checks d)) (failing_machine T F error) ops
    (invariant_new (nested_tc_build error n sizes pattern)) (CActive (mk_tstate [] None n false) 0 []).
Proof. exact public_test_consumer_conforms. Qed.
Print Assumptions C74_test_consumer.

Theorem C74_test_consumer_histories :
  forall (T F E : Type) (checks : bool) (d : T) (error : E) n sizes pattern h i a',
  match sizes with Some l => Forall (fun n => 1 <= n) l | None => True end ->
  (c_history (@test_consumer T F E d) (failing_machine T F error)
     (test_consumer_build error n sizes pattern) (CActive (mk_tstate [] None n false) 0 []) h i a' <->
   exists s', c_history (public_consumer checks (nested_test_consumer checks d)) (failing_machine T F error)
     (invariant_new (nested_tc_build error n sizes pattern)) (CActive (mk_tstate [] None n false) 0 []) h s' a' /\
     tc_erase (inv_inner s') = i).
Proof. exact public_test_consumer_history_iff. Qed.
Print Assumptions C74_test_consumer_histories.

(** A permitted history; a list of calls that breaks the rules, which the checks turn into a panic and which
    goes unnoticed without them. *)
Example C74_example :
  let s := invariant_new (@nested_tp_build nat nat nat [1; 2; 3] (Ok 7) (Some [2]) None) in
  let h := [(PProduce, PAItem (Ok (inl 1))); (PExpose, PASlice (Ok (inl [2; 3]))); (PConsider 2, PAUnit (Ok tt));
            (PSlurp, PAUnit (Ok tt)); (PProduce, PAItem (Ok (inr 7)))] in
  (exists s', p_history (public_producer true (nested_test_producer true)) s (PActive [1; 2; 3] (Ok 7) 0) h s' PEnded) /\
  p_runs (public_producer true (nested_test_producer true)) [PProduce; PConsider 1] s =
    ([PAItem (Ok (inl 1))], Panic) /\
  fst (p_runs (public_producer false (nested_test_producer false)) [PProduce; PConsider 1] s) =
    [PAItem (Ok (inl 1)); PAUnit (Ok tt)].
Proof. split; [|split; reflexivity]. eexists. run_p. Qed.

Example C74_example_consumer :
  let s := invariant_new (@nested_tc_build nat nat nat 9 3 (Some [2]) None) in
  let h := [(CConsume 1, CAUnit (Ok tt)); (CExpose, CASlots (Ok 2)); (CWrite [5; 6], CANone);
            (CConsumeSlots 2, CAUnit (Ok tt)); (CConsume 4, CAUnit (Err 9))] in
  (exists s', c_history (public_consumer true (nested_test_consumer true 0)) (failing_machine nat nat 9) s
     (CActive (mk_tstate [] None 3 false) 0 []) h s' (CEnded (mk_tstate [1; 5; 6] None 0 true))) /\
  fst (c_runs (public_consumer true (nested_test_consumer true 0)) [CClose 8; CFlush] s) = [CAUnit (Ok tt)] /\
  snd (c_runs (public_consumer true (nested_test_consumer true 0)) [CClose 8; CFlush] s) = Panic /\
  fst (c_runs (public_consumer false (nested_test_consumer false 0)) [CClose 8; CFlush] s) =
    [CAUnit (Ok tt); CAUnit (Ok tt)].
Proof. split; [|split; [|split]; vm_compute; reflexivity]. eexists. run_c. Qed.

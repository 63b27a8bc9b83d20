(** Properties C16-C18, C33-C35: basic producers and consumers. *)
From Coq Require Import Bool List Arith Lia.
From Verif Require Import Prelude ListFacts Traits Contracts ContractFacts BasicModel BasicSpec BasicProofs.
Import ListNotations.

(** *** C16 *)

Theorem C16_from_slice_conforms :
  forall (T : Type) (l : list T) (ops : list (pop T)),
  p_conforms from_slice_producer ops (from_slice_new l) (PActive l (Ok tt) 0).
Proof.
  intros T l ops. apply (lawful_p_conforms ops (s := (from_slice_new l)) (a := (PActive l (Ok tt) 0)) from_slice_lawful).
  - left. apply from_slice_slurp_lawful.
  - apply fs_rel_new.
Qed.
Print Assumptions C16_from_slice_conforms.

Theorem C16_from_slice_accessors :
  forall (T : Type) (l : list T) (h : list (pop T * pans T unit infallible)) s' a',
  p_history from_slice_producer (from_slice_new l) (PActive l (Ok tt) 0) h s' a' ->
  from_slice_into_inner s' = l /\
  fs_offset s' = length (p_emitted [] h) /\
  from_slice_produced_so_far s' = Ret (p_emitted [] h) /\
  from_slice_not_yet_produced s' = Ret (skipn (length (p_emitted [] h)) l) /\
  p_emitted [] h ++ skipn (length (p_emitted [] h)) l = l /\
  match a' with
  | PEnded => p_emitted [] h = l /\ p_last h = Some (Ok tt)
  | PActive _ _ _ => p_last h = None
  end.
Proof. exact from_slice_history. Qed.
Print Assumptions C16_from_slice_accessors.

Example C16_example :
  let h := [(PProduce, PAItem (Ok (inl 1))); (PExpose, PASlice (Ok (inl [2; 3]))); (PConsider 1, PAUnit (Ok tt));
         (PBulkProduce [0; 0], PABuf [3; 0] (Ok (inl 1))); (PExpose, PASlice (Ok (inr tt)))] in
  exists s', p_history from_slice_producer (from_slice_new [1; 2; 3]) (PActive [1; 2; 3] (Ok tt) 0) h s' PEnded /\
    p_emitted [] h = [1; 2; 3].
Proof. eexists. split; [run_p|reflexivity]. Qed.

(** *** C17 *)

Theorem C17_empty_conforms :
  forall (T F E : Type) (fin : F) (ops : list (pop T)),
  p_conforms (@empty_producer T F E) ops (empty_new fin) (PActive [] (Ok fin) 0).
Proof.
  intros T F E fin ops. apply (lawful_p_conforms ops (s := (empty_new fin)) (a := (PActive [] (Ok fin) 0)) empty_lawful).
  - left. apply empty_slurp_lawful.
  - repeat split. now exists fin.
Qed.
Print Assumptions C17_empty_conforms.

Theorem C17_empty_emits_final :
  forall (T F E : Type) (fin : F) (slurps : nat),
  exists s,
    Nat.iter slurps (fun o => let* s := o in let* (s, _) := p_slurp (@empty_producer T F E) s in Ret s) (Ret (empty_new fin)) = Ret s /\
    p_produce (@empty_producer T F E) s = Ret (None, Ok (inr fin)) /\
    p_expose (@empty_producer T F E) s = Ret (None, Ok (inr fin)).
Proof.
  intros T F E fin slurps. exists (empty_new fin). split; [|split; reflexivity].
  induction slurps as [|n IH]; [reflexivity|]. cbn [Nat.iter nat_rect]. unfold Nat.iter in IH. rewrite IH. reflexivity.
Qed.
Print Assumptions C17_empty_emits_final.

Theorem C17_empty_history :
  forall (T F E : Type) (fin : F) (h : list (pop T * pans T F E)) s' a',
  p_history (@empty_producer T F E) (empty_new fin) (PActive [] (Ok fin) 0) h s' a' ->
  p_emitted [] h = [] /\ (p_last h = None \/ p_last h = Some (Ok fin)).
Proof.
  intros T F E fin h s' a' H.
  pose proof (@p_history_emits _ _ _ _ _ _ _ _ _ _ _ _ (Nat.le_0_l _) H) as HE. cbn [firstn] in HE.
  destruct a' as [ys l' k'|].
  - destruct HE as (HE & _ & HL & _). apply app_eq_nil in HE. tauto.
  - tauto.
Qed.
Print Assumptions C17_empty_history.

Example C17_example :
  (let* (s, r1) := p_slurp (@empty_producer nat nat nat) (empty_new 5) in
   let* (s, r2) := p_bulk_produce (@empty_producer nat nat nat) [8; 9] s in Ret (r1, r2))
  = Ret (Ok tt, ([8; 9], Ok (inr 5))).
Proof. reflexivity. Qed.

(** *** C18 *)

Theorem C18_into_vec_conforms :
  forall (T : Type) (d : T) (v : list T) (ops : list (cop T unit)),
  c_conforms (into_vec_consumer d) (collect_machine T unit infallible) ops (into_vec_from_vec v) (CActive v 0 []).
Proof.
  intros T d v ops. apply (lawful_c_conforms ops (s := (into_vec_from_vec v)) (a := (CActive v 0 [])) (into_vec_lawful d)).
  apply iv_rel_from_vec.
Qed.
Print Assumptions C18_into_vec_conforms.

Theorem C18_into_vec_collects :
  forall (T : Type) (d : T) (v : list T) (h : list (cop T unit * cans infallible)) s' a',
  c_history (into_vec_consumer d) (collect_machine T unit infallible) (into_vec_from_vec v) (CActive v 0 []) h s' a' ->
  into_vec_as_ref s' = Ret (v ++ c_consumed [] h) /\ into_vec_into_vec s' = v ++ c_consumed [] h.
Proof. exact into_vec_history. Qed.
Print Assumptions C18_into_vec_collects.

Example C18_example :
  let h := [(CConsume 2, CAUnit (Ok tt)); (CExpose, CASlots (Ok 1)); (CWrite [3], CANone); (CConsumeSlots 1, CAUnit (Ok tt));
         (CBulkConsume [4; 5; 6; 7; 8], CANat (Ok 4)); (CFlush, CAUnit (Ok tt)); (CClose tt, CAUnit (Ok tt))] in
  exists s', c_history (into_vec_consumer 0) (collect_machine nat unit infallible) (into_vec_from_vec [1]) (CActive [1] 0 []) h s'
      (CEnded [1; 2; 3; 4; 5; 6; 7]) /\
    c_consumed [] h = [2; 3; 4; 5; 6; 7] /\ into_vec_as_ref s' = Ret [1; 2; 3; 4; 5; 6; 7].
Proof. eexists. split; [run_c|repeat split]. Qed.

(** *** C33. Sizes are non-zero by type. *)

Definition nonzero_sizes (sizes : option (list nat)) : Prop :=
  match sizes with Some l => Forall (fun n => 1 <= n) l | None => True end.

Theorem C33_test_producer_conforms :
  forall (T F E : Type) (items : list T) (last : res F E) (sizes : option (list nat)) (pattern : option (list bool))
    (ops : list (pop T)),
  nonzero_sizes sizes ->
  p_conforms (@test_producer T F E) ops (test_producer_build items last sizes pattern) (PActive items last 0).
Proof.
  intros T F E items last sizes pattern ops Hs.
  apply (lawful_p_conforms ops (s := (test_producer_build items last sizes pattern)) (a := (PActive items last 0)) test_producer_lawful).
  - left. apply test_producer_slurp_lawful.
  - now apply tp_rel_build.
Qed.
Print Assumptions C33_test_producer_conforms.

Theorem C33_test_producer_accessors :
  forall (T F E : Type) (items : list T) (last : res F E) sizes pattern h s' a',
  nonzero_sizes sizes ->
  p_history (@test_producer T F E) (test_producer_build items last sizes pattern) (PActive items last 0) h s' a' ->
  test_producer_remaining s' = Ret (skipn (length (p_emitted [] h)) items) /\
  p_emitted [] h ++ skipn (length (p_emitted [] h)) items = items /\
  test_producer_peek_last s' = (match p_last h with None => Some last | Some _ => None end) /\
  test_producer_did_already_emit_last s' = (match p_last h with None => false | Some _ => true end) /\
  (a' = PEnded -> p_emitted [] h = items /\ p_last h = Some last) /\
  (forall ys l k, a' = PActive ys l k -> ys = skipn (length (p_emitted [] h)) items /\ l = last /\ p_last h = None).
Proof. exact tp_history. Qed.
Print Assumptions C33_test_producer_accessors.

Theorem C33_test_producer_exposure_sizes :
  forall (T F E : Type) (items : list T) (last : res F E) sizes pattern h s' ys l k,
  nonzero_sizes sizes ->
  p_history (@test_producer T F E) (test_producer_build items last sizes pattern) (PActive items last 0) h s' (PActive ys l k) ->
  ys <> [] ->
  exists s'', p_expose (@test_producer T F E) s' = Ret (s'', Ok (inl
    match sizes with
    | None | Some [] => ys
    | Some sizes => firstn (cycle 1 sizes (exposures h)) ys
    end)).
Proof. exact tp_history_exposure. Qed.
Print Assumptions C33_test_producer_exposure_sizes.

(** With exposure sizes 1, 2; a yield pattern; an error after three items. *)
Example C33_example :
  let s0 := test_producer_build [1; 2; 3; 4] (@Err unit nat 9) (Some [1; 2]) (Some [true; false; true]) in
  let h := [(PExpose, PASlice (Ok (inl [1]))); (PProduce, PAItem (Ok (inl 1))); (PExpose, PASlice (Ok (inl [2; 3])));
         (PConsider 1, PAUnit (Ok tt))] in
  exists s', p_history test_producer s0 (PActive [1; 2; 3; 4] (Err 9) 0) h s' (PActive [3; 4] (Err 9) 1) /\
    p_emitted [] h = [1; 2] /\ exposures h = 2 /\ p_last h = None /\
    test_producer_remaining s' = Ret [3; 4].
Proof. eexists. split; [run_p|repeat split]. Qed.

(** *** C34 *)

Definition tc_start {T F} (n : nat) : cabs (tstate T F) T := CActive (mk_tstate [] None n false) 0 [].

Theorem C34_test_consumer_conforms :
  forall (T F E : Type) (d : T) (e : E) (n : nat) sizes pattern (ops : list (cop T F)),
  nonzero_sizes sizes ->
  c_conforms (test_consumer d) (failing_machine T F e) ops (test_consumer_build e n sizes pattern) (tc_start n).
Proof.
  intros T F E d e n sizes pattern ops Hs.
  apply (lawful_c_conforms ops (s := (test_consumer_build e n sizes pattern)) (a := (tc_start n)) (test_consumer_lawful d e)).
  now apply tc_rel_build.
Qed.
Print Assumptions C34_test_consumer_conforms.

(** What is reported at any time, also after errors and after closing. *)
Theorem C34_test_consumer_accessors :
  forall (T F E : Type) (d : T) (e : E) (n : nat) sizes pattern (h : list (cop T F * cans E)) s' x',
  nonzero_sizes sizes ->
  c_history (test_consumer d) (failing_machine T F e) (test_consumer_build e n sizes pattern) (tc_start n) h s' x' ->
  test_consumer_consumed s' = Ret (c_consumed [] h) /\
  test_consumer_final_consumed s' = c_closed h /\
  test_consumer_into_consumed s' = (c_consumed [] h, c_closed h) /\
  test_consumer_did_error s' = c_failed h /\
  test_consumer_peek_error s' = (if c_failed h then None else Some e) /\
  length (c_consumed [] h) <= n /\
  (c_failed h = true -> length (c_consumed [] h) = n).
Proof.
  intros T F E d e n sizes pattern h s' x' Hs H.
  pose proof (tc_rel_build (F := F) (T := T) e n sizes pattern Hs) as HB.
  pose proof (lawful_c_history (a := tc_start n) d (test_consumer_lawful d e) HB H) as HR.
  destruct (tc_history HB H) as (H1 & H2 & H3 & H4 & H5). cbn in H1, H2, H5.
  pose proof (tc_accessors _ _ _ HR) as HA. unfold t_of in *.
  assert (Hc : match c_closed h with Some f => Some f | None => @None F end = c_closed h) by (destruct (c_closed h); reflexivity).
  destruct x' as [a k w|a]; rewrite H1, H3, H5, Hc in HA; destruct HA as (A1 & A2 & A3 & A4 & A5);
    splits; auto; try lia; intros Hf; specialize (H4 Hf); lia.
Qed.
Print Assumptions C34_test_consumer_accessors.

(** Once [n] items are accepted, every further call fails with [e]. *)
Theorem C34_test_consumer_fails_after_n :
  forall (T F E : Type) (d : T) (e : E) (n : nat) sizes pattern (h : list (cop T F * cans E)) s' a k w,
  nonzero_sizes sizes ->
  c_history (test_consumer d) (failing_machine T F e) (test_consumer_build e n sizes pattern) (tc_start n) h s' (CActive a k w) ->
  length (c_consumed [] h) = n ->
  (forall x, exists s2, c_consume (test_consumer d) x s' = Ret (s2, Err e)) /\
  (forall f, exists s2, c_close (test_consumer d) f s' = Ret (s2, Err e)) /\
  (exists s2, c_flush (test_consumer d) s' = Ret (s2, Err e)) /\
  (exists s2, c_expose (test_consumer d) s' = Ret (s2, Err e)) /\
  (forall m, exists s2, c_consume_slots (test_consumer d) m s' = Ret (s2, Err e)) /\
  (forall buf, exists s2, c_bulk_consume (test_consumer d) buf s' = Ret (s2, Err e)).
Proof.
  intros T F E d e n sizes pattern h s' a k w Hs H Hn.
  pose proof (tc_rel_build (F := F) (T := T) e n sizes pattern Hs) as HB.
  pose proof (lawful_c_history (a := tc_start n) d (test_consumer_lawful d e) HB H) as HR.
  destruct (tc_history HB H) as (_ & H2 & _). cbn in H2.
  apply (tc_all_fail d HR). lia.
Qed.
Print Assumptions C34_test_consumer_fails_after_n.

(** Before that, no rule-respecting call fails, and exposures are as configured. *)
Theorem C34_test_consumer_accepts_before_n :
  forall (T F E : Type) (d : T) (e : E) (n : nat) sizes pattern (h : list (cop T F * cans E)) s' a k w,
  nonzero_sizes sizes ->
  c_history (test_consumer d) (failing_machine T F e) (test_consumer_build e n sizes pattern) (tc_start n) h s' (CActive a k w) ->
  length (c_consumed [] h) < n ->
  (forall o, c_permitted (CActive a k w) o -> exists s2 r, c_do (test_consumer d) o s' = Ret (s2, r) /\ cans_failed r = false) /\
  (exists s2 m, c_expose (test_consumer d) s' = Ret (s2, Ok m) /\ 1 <= m <= n - length (c_consumed [] h) /\
     match sizes with
     | None | Some [] => 2048 <= m \/ m = n - length (c_consumed [] h)
     | Some sizes => m <= cycle 1 sizes (slot_exposures h) /\
         (cycle 1 sizes (slot_exposures h) <= 2048 ->
            m = Nat.min (cycle 1 sizes (slot_exposures h)) (n - length (c_consumed [] h)))
     end).
Proof.
  intros T F E d e n sizes pattern h s' a k w Hs H Hn.
  pose proof (tc_rel_build (F := F) (T := T) e n sizes pattern Hs) as HB.
  pose proof (lawful_c_history (a := tc_start n) d (test_consumer_lawful d e) HB H) as HR. cbn in HR.
  destruct (tc_history HB H) as (_ & H2 & _). cbn in H2.
  split.
  - intros o HP. destruct (lawful_c_step o s' (CActive a k w) (test_consumer_lawful d e) HR HP) as (s2 & r & x2 & HD & HA & HR2).
    exists s2, r. split; [exact HD|].
    assert (HX : forall x2 r2, c_history (test_consumer d) (failing_machine T F e) s' (CActive a k w) [(o, r)] r2 x2 -> c_failed [(o, r)] = true -> False).
    { intros x3 r3 HH Hf. destruct (tc_history HR HH) as (_ & G2 & _ & G4 & _). specialize (G4 Hf). 
      unfold c_failed in Hf. cbn in Hf. rewrite orb_false_r in Hf.
      assert (c_consumed w [(o, r)] = []) as Hc.
      { destruct o, r as [[]|[]|[]|]; cbn in *; try discriminate; try contradiction; reflexivity. }
      rewrite Hc in G2. cbn in G2. lia. }
    destruct (cans_failed r) eqn:Ef; auto. exfalso. eapply (HX x2 s2).
    + eapply c_history_step; eauto. apply c_history_nil.
    + unfold c_failed. cbn. now rewrite Ef.
  - destruct (tc_expose_ok d HR) as (s2 & slots & Hsl & E1 & Hm & _ & _); [lia|].
    exists s2. eexists. split; [exact E1|]. rewrite <- H2, Nat.add_sub. split; [lia|].
    pose proof (tc_sizes_count (x := tc_start n) HB H eq_refl) as Hz.
    assert (Hc : tc_size s' = match sizes with None | Some [] => None | Some sizes => Some (cycle 1 sizes (slot_exposures h)) end).
    { unfold tc_size. rewrite Hz. destruct sizes as [[|m0 sizes]|]; reflexivity. }
    rewrite Hc in *. unfold min_opt in *. generalize dependent 2048. intros N HN.
    destruct sizes as [[|m0 sizes]|]; lia.
Qed.
Print Assumptions C34_test_consumer_accepts_before_n.

Example C34_example :
  let s0 := test_consumer_build 99 3 (Some [2]) (Some [true; true]) in
  let h := [(CConsume 5, CAUnit (Ok tt)); (CExpose, CASlots (Ok 2)); (CWrite [6; 7], CANone); (CFlush, CAUnit (Ok tt));
         (CConsumeSlots 2, CAUnit (Ok tt)); (CClose 4, CAUnit (Err 99))] in
  exists s' x', c_history (test_consumer 0) (failing_machine nat nat 99) s0 (tc_start 3) h s' x' /\
    test_consumer_consumed s' = Ret [5; 6; 7] /\ test_consumer_final_consumed s' = None /\ test_consumer_did_error s' = true.
Proof. do 2 eexists. split; [run_c|repeat split]. Qed.

(** *** C35 *)

(** From every state with a valid index, with every pattern in which some poll is ready. *)
Theorem C35_await_completes :
  forall y, y_index y < length (y_pattern y) -> In false (y_pattern y) ->
  exists k y', k < length (y_pattern y) /\ yielder_await (length (y_pattern y)) y = Ret y' /\
    y_pattern y' = y_pattern y /\ y_index y' < length (y_pattern y') /\
    poll_trace (k + 1) y = Ret (y', pending_then_ready k).
Proof.
  intros y H1 H2. destruct (@await_total y (conj H1 H2)) as (k & y' & Hk & E1 & [Hy _] & Hp & Ht).
  exists k, y'. auto.
Qed.
Print Assumptions C35_await_completes.

Theorem C35_new_is_ready :
  forall p, y_pattern (yielder_new p) = effective_pattern p /\ y_index (yielder_new p) = 0 /\
    In false (effective_pattern p).
Proof. intros p. rewrite yielder_new_pattern. splits; auto. apply effective_false. Qed.
Print Assumptions C35_new_is_ready.

(** The answers follow the pattern, repeated. *)
Theorem C35_polls_follow_pattern :
  forall (p : list bool) (n : nat), exists y,
  poll_trace n (yielder_new p) = Ret (y, map (fun i => negb (cycle true (effective_pattern p) i)) (seq 0 n)).
Proof.
  intros p n. rewrite yielder_new_pattern. eexists.
  rewrite poll_trace_ok; [reflexivity|]. pose proof (effective_false p) as H.
  destruct (effective_pattern p); [destruct H|cbn; lia].
Qed.
Print Assumptions C35_polls_follow_pattern.

(** Consecutive awaits together make the polls of the repeated pattern. *)
Theorem C35_awaits_cycle :
  forall (p : list bool) (n : nat), exists ks y,
  length ks = n /\ Forall (fun k => k < length (effective_pattern p)) ks /\
  await_all n (yielder_new p) = Ret y /\
  concat (map pending_then_ready ks) =
    map (fun i => negb (cycle true (effective_pattern p) i)) (seq 0 (length (concat (map pending_then_ready ks)))).
Proof.
  intros p n. destruct (await_all_ok n (yielder_new_ok p)) as (ks & y & H1 & H2 & H3 & H4).
  exists ks, y. rewrite yielder_new_pattern in H2. splits; auto.
  destruct (C35_polls_follow_pattern p (length (concat (map pending_then_ready ks)))) as [y' E].
  rewrite H4 in E. injection E as _ E. exact E.
Qed.
Print Assumptions C35_awaits_cycle.

Example C35_example :
  poll_trace 7 (yielder_new [true; true]) = Ret (mk_yielder [true; true; false] 1, [false; false; true; false; false; true; false]) /\
  effective_pattern [] = [false] /\ effective_pattern [true; false; true] = [true; false; true].
Proof. repeat split. Qed.

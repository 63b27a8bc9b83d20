(** Property C101: reaching inside adaptors with [as_ref] and [as_mut]. *)
From Coq Require Import Bool List Arith Lia.
From Verif Require Import Prelude ListFacts Traits Contracts ContractFacts BasicModel BasicSpec BasicProofs QueueModel
  AdaptorModel AdaptorSpec BufferedSpec ScramblerModel ScramblerProofs PublicModel PublicProofs MergeSpec SliceModel SliceSpec SliceProofs
  ReachModel ReachSpec ReachProofs.
Import ListNotations.

Definition pscr_hyps {S T F E} (P : bulk_producer S T F E) R D (pat : list pscr_op) (cap fuel : nat) : Prop :=
  lawful_producer P R D /\ lawful_slurp P R D /\ 1 <= cap /\ (forall n, In (ScConsiderProduced n) pat -> 1 <= n) /\
  Datatypes.S cap * Datatypes.S (length pat) <= fuel.

(** *** What is inside, and nothing else, is reached. *)
Theorem C101_reaches :
  (forall (S : Type) (s : invariant S) i j, invariant_as_ref (invariant_as_mut i s) = i /\ invariant_as_mut (invariant_as_ref s) s = s /\
     invariant_as_mut i (invariant_as_mut j s) = invariant_as_mut i s) /\
  (forall (S T F E : Type) (s : invariant (pscr S T F E)) i j, public_pscr_as_ref (public_pscr_as_mut i s) = i /\
     public_pscr_as_mut (public_pscr_as_ref s) s = s /\ public_pscr_as_mut i (public_pscr_as_mut j s) = public_pscr_as_mut i s) /\
  (forall (S T : Type) (s : invariant (cscr S T)) i j, public_cscr_as_ref (public_cscr_as_mut i s) = i /\
     public_cscr_as_mut (public_cscr_as_ref s) s = s /\ public_cscr_as_mut i (public_cscr_as_mut j s) = public_cscr_as_mut i s).
Proof.
  split; [|split].
  - intros S [i b j] x y. auto.
  - intros S T F E [[i q l o n] b j] x y. auto.
  - intros S T [[i q o n] b j] x y. auto.
Qed.
Print Assumptions C101_reaches.

(** *** New scramblers have nothing on display: in a test build, marking anything panics. *)
Theorem C101_new_scramblers :
  (forall (S T F E : Type) (dbg : bool) fuel (P : bulk_producer S T F E) (x0 : T) s pat cap n, 1 <= n ->
     p_do (public_producer true (pscr_producer dbg fuel P)) (PConsider n) (public_pscr_new x0 s pat cap) = Panic) /\
  (forall (S T F E : Type) (dbg : bool) fuel (C : bulk_consumer S T F E) (x0 : T) s pat cap n, 1 <= n ->
     c_do (public_consumer true (cscr_consumer dbg x0 fuel C)) (CConsumeSlots n) (public_cscr_new x0 s pat cap) = Panic).
Proof. split; intros S T F E dbg fuel P x0 s pat cap [|n] Hn; try lia; reflexivity. Qed.
Print Assumptions C101_new_scramblers.

(** *** A scrambled producer and the producer inside, used by turns. Whatever the order: every item comes out exactly once, by one of the two ways.
    Those that the scrambler handed out, followed by the at most [cap] that it still holds, are interleaved with those fetched directly. From then on the scrambler
    yields what it holds, then what is left inside. *)
Theorem C101_scrambled_producer :
  forall (S T F E : Type) (dbg checks : bool) (P : bulk_producer S T F E) R D (x0 : T) s xs l k pat cap fuel log s',
  pscr_hyps P R D pat cap fuel -> R s xs l k ->
  let Q := public_producer checks (pscr_producer dbg fuel P) in
  p_mixed Q P D public_pscr_as_ref public_pscr_as_mut (public_pscr_new x0 s pat cap) log s' ->
  exists ahead rest taken, xs = taken ++ rest /\ interleave (way true log ++ ahead) (way false log) taken /\ length ahead <= cap /\
    ((exists k', R (public_pscr_as_ref s') rest l k') \/ (D (public_pscr_as_ref s') /\ rest = [])) /\
    forall ops, ~ In PSlurp ops -> p_conforms Q ops s' (PActive (ahead ++ rest) l 0).
Proof.
  intros S T F E dbg checks P R D x0 s xs l k pat cap fuel log s' (L & LS & Hc & Hn & Hf) HR Q HM.
  assert (HF : Forall pscr_op_ok pat) by (apply Forall_forall; intros [| |] Hi; cbn; auto).
  assert (Hf' : Datatypes.S cap * length (pscr_operations pat) <= fuel) by (pose proof (pscr_operations_length pat); nia).
  pose proof (@held_new _ _ _ _ checks R D cap (pscr_operations pat) x0 s xs l k pat Hc HR HF eq_refl) as HN.
  destruct (@held_mixed _ _ _ _ dbg checks P R D cap _ fuel (pscr_operations_ok HF) Hf' L (or_introl LS) LS _ _ _ _ _ HN HM)
    as (ahead & rest & taken & H1 & H2 & H3).
  exists ahead, rest, taken. refine (conj H1 (conj H2 (conj (held_ahead H3) (conj (held_inner H3) _)))).
  exact (@held_conforms _ _ _ _ dbg checks P R D cap _ fuel (pscr_operations_ok HF) Hf' L (or_introl LS) _ _ _ _ H3).
Qed.
Print Assumptions C101_scrambled_producer.

(** *** Putting a different producer behind the reference. Either the scrambler has not seen the end yet: then it yields what it holds, followed by the items and
    the last value of the new producer. Or it has: then the new producer is never touched. *)
Theorem C101_replaced_producer :
  forall (S T F E : Type) (dbg checks : bool) (P : bulk_producer S T F E) R D (x0 : T) s xs l k pat cap fuel h s' ys l' k',
  pscr_hyps P R D pat cap fuel -> R s xs l k ->
  let Q := public_producer checks (pscr_producer dbg fuel P) in
  p_history Q (public_pscr_new x0 s pat cap) (PActive xs l 0) h s' (PActive ys l' k') -> ~ In PSlurp (map fst h) ->
  exists ahead, length ahead <= cap /\
    ((exists rest k1, ys = ahead ++ rest /\ R (public_pscr_as_ref s') rest l k1 /\
        forall i rest' l2 k2 ops, R i rest' l2 k2 -> ~ In PSlurp ops ->
          p_conforms Q ops (public_pscr_as_mut i s') (PActive (ahead ++ rest') l2 0)) \/
     (ys = ahead /\ forall i ops, ~ In PSlurp ops -> p_conforms Q ops (public_pscr_as_mut i s') (PActive ahead l 0))).
Proof.
  intros S T F E dbg checks P R D x0 s xs l k pat cap fuel h s' ys l' k' (L0 & LS0 & Hc & Hn & Hf) HR Q HH Hh.
  pose proof (lawful_forgets_end L0) as L. pose proof (@slurp_forgets_end _ _ _ _ P R D LS0) as LS.
  assert (HF : Forall pscr_op_ok pat) by (apply Forall_forall; intros [| |] Hi; cbn; auto).
  assert (Hf' : Datatypes.S cap * length (pscr_operations pat) <= fuel) by (pose proof (pscr_operations_length pat); nia).
  set (D1 := fun _ : S => True) in *. set (ops0 := pscr_operations pat) in *.
  assert (HL : lawful_producer Q (pub_rel (pscr_rel R D1 cap ops0) checks) (pub_end (pscr_end (T := T) (F := F) (E := E) D1) checks)).
  { apply public_lawful. apply (@pscr_lawful _ _ _ _ dbg P R D1 (lp_core L) cap ops0 (or_introl LS) (pscr_operations_ok HF) fuel Hf'). }
  pose proof (@held_new _ _ _ _ checks R D1 cap ops0 x0 s xs l k pat Hc HR HF eq_refl) as HN.
  assert (HR' : pub_rel (pscr_rel R D1 cap ops0) checks s' ys l' k').
  { change (p_rel (pub_rel (pscr_rel R D1 cap ops0) checks) (pub_end (pscr_end (T := T) (F := F) (E := E) D1) checks) s' (PActive ys l' k')).
    eapply lawful_p_history with (4 := HH); [exact HL|now right|]. exact (held_rel HN). }
  pose proof (p_history_emits (Nat.le_0_l _) HH) as (_ & -> & _).
  destruct (@rel_held _ _ _ _ checks D1 cap ops0 R s' ys l k' HR') as (ahead & rest & -> & H).
  exists ahead. split; [exact (held_ahead H)|].
  pose proof (@held_conforms _ _ _ _ dbg checks P R D1 cap ops0 fuel (pscr_operations_ok HF) Hf' L (or_introl LS)) as HC.
  destruct (held_case H) as [((k1 & H1) & H2)|[-> H2]]; [left|right].
  - exists rest, k1. split; [reflexivity|]. split; [exact H1|]. intros i rest' l2 k2 os Hi Ho. exact (HC _ _ _ _ (H2 _ _ _ _ Hi) os Ho).
  - rewrite app_nil_r. split; [reflexivity|]. intros i os Ho. pose proof (HC _ _ _ _ (H2 i Logic.I) os Ho) as H3. now rewrite app_nil_r in H3.
Qed.
Print Assumptions C101_replaced_producer.

(** *** The end of the producer inside cannot be told from the answers of the scrambler: after one item, with no final value in sight, fetching the next one directly panics. *)
Theorem C101_fetching_refuted :
  exists (xs : list nat) (cap : nat) (s : test_producer_state nat nat nat) s',
    lawful_producer test_producer tp_rel (@tp_end nat nat nat) /\ lawful_slurp test_producer tp_rel (@tp_end nat nat nat) /\
    tp_rel s xs (Ok 7) 0 /\
    let Q := public_producer true (pscr_producer true 16 test_producer) in
    p_history Q (public_pscr_new 0 s [] cap) (PActive xs (Ok 7) 0) [(PProduce, PAItem (Ok (inl 1)))] s' (PActive [2] (Ok 7) 0) /\
    p_produce test_producer (public_pscr_as_ref s') = Panic.
Proof.
  exists [1; 2], 3, (test_producer_build [1; 2] (Ok 7) None None). eexists.
  split; [apply test_producer_lawful|]. split; [apply test_producer_slurp_lawful|]. split; [now apply tp_rel_build|]. cbv zeta. split.
  - eapply p_history_step; [exact Logic.I|vm_compute; reflexivity|split; reflexivity|]. apply p_history_nil.
  - vm_compute. reflexivity.
Qed.
Print Assumptions C101_fetching_refuted.

(** *** The checker around a producer: items come out in order, whichever way they take. *)
Theorem C101_checked_producer :
  forall (S T F E : Type) (checks : bool) (P : bulk_producer S T F E) R D s xs l k log s',
  lawful_producer P R D -> lawful_slurp P R D -> R s xs l k ->
  p_mixed (public_producer checks P) P D invariant_as_ref invariant_as_mut (invariant_new s) log s' ->
  exists rest, xs = map snd log ++ rest /\ (exists k', R (invariant_as_ref s') rest l k') /\
    forall ops, p_conforms (public_producer checks P) ops s' (PActive rest l 0).
Proof.
  intros S T F E checks P R D s xs l k log s' L LS HR HM.
  destruct (@checked_mixed _ _ _ _ checks P R D L LS s xs l k log s' HR HM) as (rest & H1 & k' & H2). exists rest. split; [exact H1|].
  pose proof (public_lawful checks (lp_core L)) as HL. split.
  - unfold pub_rel in H2. destruct checks; [destruct H2 as (H2 & _)|]; eauto.
  - intros ops. apply (lawful_p_conforms ops (s := s') (a := PActive rest l 0) HL); [left; now apply public_slurp_lawful|]. exact (lp_forget HL H2).
Qed.
Print Assumptions C101_checked_producer.

(** *** A scrambled consumer and the consumer inside, used by turns. What the consumer inside has seen: the items given to it directly, interleaved with those that the
    scrambler has passed on. The scrambler withholds at most [cap] items, the last ones given to it; the next flush delivers them, after everything given directly. *)
Theorem C101_scrambled_consumer :
  forall (S A T F E : Type) (x0 : T) (checks : bool) (C : bulk_consumer S T F E) (M : machine A T F E) R D s a k w pat cap fuel log s',
  lawful_consumer C M R D -> R s a k w -> 1 <= cap -> (forall n, In (ScConsumeSlots n) pat -> 1 <= n) ->
  Datatypes.S cap * Datatypes.S (length pat) <= fuel ->
  let Q := public_consumer checks (cscr_consumer false x0 fuel C) in
  c_mixed Q C public_cscr_as_ref public_cscr_as_mut (public_cscr_new x0 s pat cap) log s' ->
  exists out pend seen a', out ++ pend = way true log /\ interleave out (way false log) seen /\ length pend <= cap /\
    m_forwards M a seen a' /\ R (public_cscr_as_ref s') a' 0 [] /\
    forall s2, c_do Q CFlush s' = Ret (s2, CAUnit (Ok tt)) ->
      exists a1 a2, m_forwards M a' pend a1 /\ m_flush M a1 = (a2, Ok tt) /\ R (public_cscr_as_ref s2) a2 0 [].
Proof.
  intros S A T F E x0 checks C M R D s a k w pat cap fuel log s' L HR Hc Hn Hf Q HM.
  assert (HF : Forall cscr_op_ok pat) by (apply Forall_forall; intros [| |] Hi; cbn; auto).
  assert (Hf' : Datatypes.S cap * length (cscr_operations pat) <= fuel) by (pose proof (cscr_operations_length pat); nia).
  assert (HN : withheld R cap (cscr_operations pat) (public_cscr_new x0 s pat cap) a []).
  { eapply cscr_new_rel; eauto. exact (lc_core L). }
  destruct (@withheld_mixed _ _ _ _ _ x0 checks C M R D cap _ fuel L (cscr_operations_ok HF) Hf' _ _ _ _ HN HM)
    as (out & pend & seen & a' & H1 & H2 & H3 & H4).
  exists out, pend, seen, a'. refine (conj H1 (conj H2 (conj (withheld_cap H4) (conj H3 (conj (proj2 H4) _))))).
  intros s2 HD. destruct (@withheld_flush _ _ _ _ _ x0 checks C M R D cap _ fuel L (cscr_operations_ok HF) Hf' _ _ _ _ _ H4 HD)
    as (a1 & a2 & J1 & J2 & J3). exists a1, a2. split; [exact J1|]. split; [exact J2|exact (proj2 J3)].
Qed.
Print Assumptions C101_scrambled_consumer.

(** *** The checker around a consumer. *)
Theorem C101_checked_consumer :
  forall (S A T F E : Type) (checks : bool) (C : bulk_consumer S T F E) (M : machine A T F E) R D s a k w log s',
  lawful_consumer C M R D -> R s a k w ->
  c_mixed (public_consumer checks C) C invariant_as_ref invariant_as_mut (invariant_new s) log s' ->
  exists a', m_forwards M a (map snd log) a' /\ R (invariant_as_ref s') a' 0 [] /\
    forall ops, c_conforms (public_consumer checks C) M ops s' (CActive a' 0 []).
Proof.
  intros S A T F E checks C M R D s a k w log s' L HR HM.
  destruct (@checkedc_mixed _ _ _ _ _ checks C M R D L s a k w log s' HR HM) as (a' & H1 & H2). exists a'. split; [exact H1|]. split.
  - unfold pubc_rel in H2. destruct checks; [destruct H2 as (H2 & _)|]; exact H2.
  - intros ops. exact (lawful_c_conforms ops (s := s') (a := CActive a' 0 []) (publicc_lawful (R := R) (D := D) checks (lc_core L)) H2).
Qed.
Print Assumptions C101_checked_consumer.

(** *** Mutable views of [IntoSlice]: they change their region only, and the consumer goes on as before. [f] is what the caller does to the
    items of the region. *)
Theorem C101_into_slice_views :
  forall (T : Type) (l : list T) h s' a k w (f : list T -> list T),
  (forall xs, length (f xs) = length xs) ->
  c_history into_slice_consumer (filling_machine T unit (length l)) (into_slice_new l) (CActive [] 0 []) h s' (CActive a k w) ->
  let log := c_consumed [] h in
  exists rest s1 s2, into_slice_get_overwritten_so_far s' = Ret log /\ into_slice_get_not_yet_overwritten s' = Ret rest /\
    into_slice_get_overwritten_so_far_mut f s' = Ret s1 /\ into_slice_get_overwritten_so_far s1 = Ret (f log) /\
    into_slice_get_not_yet_overwritten s1 = Ret rest /\
    into_slice_get_not_yet_overwritten_mut f s' = Ret s2 /\ into_slice_get_overwritten_so_far s2 = Ret log /\
    into_slice_get_not_yet_overwritten s2 = Ret (f rest) /\
    into_slice_as_ref (into_slice_as_mut f s') = f (log ++ rest) /\
    into_slice_get_offset (into_slice_as_mut f s') = length log /\
    forall ops,
      c_conforms into_slice_consumer (filling_machine T unit (length l)) ops s1 (CActive (f log) 0 []) /\
      c_conforms into_slice_consumer (filling_machine T unit (length l)) ops s2 (CActive log 0 []) /\
      c_conforms into_slice_consumer (filling_machine T unit (length l)) ops (into_slice_as_mut f s')
        (CActive (firstn (length log) (f (log ++ rest))) 0 []).
Proof.
  intros T l h s' a k w f Hf HH log.
  pose proof (filling_history (is_rel_new l) HH) as HR. cbn [app] in HR. fold log in HR.
  destruct (views f Hf HR) as (rest & V0 & V1 & V2 & V3 & V4 & V5 & V6). exists rest. do 2 eexists.
  destruct (is_rel_read HR) as (_ & _ & R3 & rest1 & R4 & R5). rewrite V0 in R5. apply app_inv_head in R5 as <-.
  destruct (is_rel_read V2) as (_ & _ & A1 & rest2 & A2 & A3). cbn in A3. apply app_inv_head in A3 as <-.
  destruct (is_rel_read V4) as (_ & _ & B1 & rest3 & B2 & B3). cbn in B3. apply app_inv_head in B3 as <-.
  rewrite V5. refine (conj R3 (conj R4 (conj V1 (conj A1 (conj A2 (conj V3 (conj B1 (conj B2 (conj eq_refl (conj eq_refl _)))))))))).
  intros ops. split; [|split].
  - exact (lawful_c_conforms ops (a := CActive _ 0 []) (into_slice_lawful (length l)) V2).
  - exact (lawful_c_conforms ops (a := CActive _ 0 []) (into_slice_lawful (length l)) V4).
  - exact (lawful_c_conforms ops (a := CActive _ 0 []) (into_slice_lawful (length l)) V6).
Qed.
Print Assumptions C101_into_slice_views.

(** *** Examples. A scrambled TestProducer: 1 through the scrambler, which reads ahead 2; 3 directly; 2 and 4 through the scrambler, which now holds 5. *)
Definition ex_reach : invariant (pscr (test_producer_state nat nat nat) nat nat nat) :=
  public_pscr_new 0 (test_producer_build [1; 2; 3; 4; 5; 6] (Ok 7) None None) [ScProduce] 2.

Example C101_scrambled_producer_example :
  pscr_hyps test_producer tp_rel (@tp_end nat nat nat) [ScProduce] 2 20 /\
  exists s', p_mixed (public_producer true (pscr_producer true 20 test_producer)) test_producer (@tp_end nat nat nat)
      public_pscr_as_ref public_pscr_as_mut ex_reach [(true, 1); (false, 3); (true, 2); (true, 4)] s' /\
    (exists s2, p_do (public_producer true (pscr_producer true 20 test_producer)) PProduce s' = Ret (s2, PAItem (Ok (inl 5)))) /\
    (exists i, p_produce test_producer (public_pscr_as_ref s') = Ret (i, Ok (inl 6))).
Proof.
  split.
  { split; [apply test_producer_lawful|]. split; [apply test_producer_slurp_lawful|]. split; [lia|]. split; [|cbn; lia].
    intros n [H|[]]. discriminate. }
  eexists. split.
  - change [(true, 1); (false, 3); (true, 2); (true, 4)] with
      ((([] ++ tagged true (p_emitted [] [(PProduce (T := nat), PAItem (F := nat) (E := nat) (Ok (inl 1)))])) ++
        tagged false (p_emitted [] [(PProduce (T := nat), PAItem (F := nat) (E := nat) (Ok (inl 3)))])) ++
       tagged true (p_emitted [] [(PProduce (T := nat), PAItem (F := nat) (E := nat) (Ok (inl 2))); (PProduce, PAItem (Ok (inl 4)))])).
    eapply p_mixed_outer; [eapply p_mixed_inner; [eapply p_mixed_outer; [apply p_mixed_nil| | | |]| | | |]| | | |].
    all: try (repeat (eapply p_trace_step; [vm_compute; reflexivity|]); apply p_trace_nil).
    all: try (cbn; tauto).
    all: try (repeat constructor; fail).
    all: try (cbn; intros H; repeat destruct H as [H|H]; try discriminate; contradiction).
    intros [_ H]. vm_compute in H. discriminate.
  - split; eexists; vm_compute; reflexivity.
Qed.

(** A scrambled TestConsumer: 1 through the scrambler, 9 directly, 2 and 3 through the scrambler. Nothing but 9 has arrived; a flush delivers the rest. *)
Definition ex_reach_consumer : invariant (cscr (test_consumer_state nat nat nat) nat) :=
  public_cscr_new 0 (test_consumer_build 7 9 None None) [ScConsume] 4.

Example C101_scrambled_consumer_example :
  let Q := public_consumer true (cscr_consumer false 0 20 (test_consumer 0)) in
  exists s', c_mixed Q (test_consumer 0) public_cscr_as_ref public_cscr_as_mut ex_reach_consumer [(true, 1); (false, 9); (true, 2); (true, 3)] s' /\
    test_consumer_consumed (public_cscr_as_ref s') = Ret [9] /\
    exists s2, c_do Q CFlush s' = Ret (s2, CAUnit (Ok tt)) /\ test_consumer_consumed (public_cscr_as_ref s2) = Ret [9; 1; 2; 3].
Proof.
  cbv zeta. eexists. split.
  - change [(true, 1); (false, 9); (true, 2); (true, 3)] with
      ((([] ++ tagged true (c_consumed [] [(CConsume (F := nat) 1, CAUnit (E := nat) (Ok tt))])) ++
        tagged false (c_consumed [] [(CConsume (F := nat) 9, CAUnit (E := nat) (Ok tt))])) ++
       tagged true (c_consumed [] [(CConsume (F := nat) 2, CAUnit (E := nat) (Ok tt)); (CConsume 3, CAUnit (Ok tt))])).
    eapply c_mixed_outer; [eapply c_mixed_inner; [eapply c_mixed_outer; [apply c_mixed_nil| | |]| | |]| | |].
    all: try (repeat (eapply c_trace_step; [vm_compute; reflexivity|]); apply c_trace_nil).
    all: try (cbn; tauto).
    all: repeat constructor.
  - split; [vm_compute; reflexivity|]. eexists. split; vm_compute; reflexivity.
Qed.

(** Two items in a slice of four: reversing the overwritten part, or the rest. *)
Example C101_into_slice_views_example :
  exists s', c_history into_slice_consumer (filling_machine nat unit 4) (into_slice_new [0; 0; 7; 8]) (CActive [] 0 [])
      [(CConsume 1, CAUnit (Ok tt)); (CConsume 2, CAUnit (Ok tt))] s' (CActive [1; 2] 0 []) /\
    into_slice_get_overwritten_so_far_mut (@rev nat) s' = Ret (mk_into_slice [2; 1; 7; 8] 2) /\
    into_slice_get_not_yet_overwritten_mut (@rev nat) s' = Ret (mk_into_slice [1; 2; 8; 7] 2) /\
    into_slice_as_mut (@rev nat) s' = mk_into_slice [8; 7; 2; 1] 2.
Proof. eexists. split; [run_c|]. split; [reflexivity|]. split; reflexivity. Qed.

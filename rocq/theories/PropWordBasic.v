(** C75: the rest of the library computes with machine words. *)
From Coq Require Import Bool List Arith Lia.
From Verif Require Import Prelude ListFacts Traits Contracts ContractFacts BasicModel BasicSpec BasicProofs AdaptorModel
  SliceModel SliceSpec SliceProofs QueueModel ScramblerModel WordModel WordProofs WordBasicModel WordBasicSpec WordBasicProofs.
Import ListNotations.

(** [FromSlice], [FromBoxedSlice]: the length of a slice is below [W], and then the words change nothing, in any permitted history. *)
Theorem C75_from_slice : forall W checked T (l : list T) h s a, length l < W ->
  p_history (word_from_slice W checked) (from_slice_new l) (PActive l (Ok tt) 0) h s a <->
  p_history from_slice_producer (from_slice_new l) (PActive l (Ok tt) 0) h s a.
Proof.
  intros W checked T l h s a H.
  apply (@p_agree _ _ _ _ _ _ (fsw W)); [apply fsw_do|apply fsw_step|now apply fsw_new].
Qed.

Theorem C75_from_slice_conforms : forall W checked T (l : list T) ops, length l < W ->
  p_conforms (word_from_slice W checked) ops (from_slice_new l) (PActive l (Ok tt) 0).
Proof.
  intros W checked T l ops H.
  apply (@p_agree_conforms _ _ _ _ from_slice_producer _ (fsw W)); [apply fsw_do|apply fsw_step|now apply fsw_new|].
  apply (lawful_p_conforms ops (s := (from_slice_new l)) (a := (PActive l (Ok tt) 0)) from_slice_lawful).
  - left. apply from_slice_slurp_lawful.
  - apply fs_rel_new.
Qed.

(** [IntoSlice]. *)
Theorem C75_into_slice : forall W checked T A (M : machine A T unit unit) a0 (l : list T) h s a, length l < W ->
  c_history (word_into_slice W checked) M (into_slice_new l) (CActive a0 0 []) h s a <->
  c_history into_slice_consumer M (into_slice_new l) (CActive a0 0 []) h s a.
Proof.
  intros W checked T A M a0 l h s a H.
  apply (@c_agree _ _ _ _ _ _ _ M (isw W) (fun _ => True)); auto.
  - intros s1 a1 o H1 _ H2. exact (isw_do checked o H1 H2).
  - intros s1 a1 o s2 r a2 H1 _ H2 H3 H4. eapply isw_step; eassumption.
  - now apply isw_new.
Qed.

Theorem C75_into_slice_conforms : forall W checked T (l : list T) ops, length l < W ->
  c_conforms (word_into_slice W checked) (filling_machine T unit (length l)) ops (into_slice_new l) (CActive [] 0 []).
Proof.
  intros W checked T l ops H.
  apply (@c_agree_conforms _ _ _ _ _ into_slice_consumer _ _ (isw W)); [apply isw_do|apply isw_step|now apply isw_new|].
  exact (lawful_c_conforms ops (s := into_slice_new l) (a := CActive [] 0 []) (into_slice_lawful (length l)) (is_rel_new l)).
Qed.

(** [Limit], around any producer or consumer, lawful or not: as long as the user of the [Limit] respects the rules, its
    subtractions stay in range. *)
Theorem C75_limit_producer : forall W checked S T F E (P : bulk_producer S T F E) inner n xs last h s a,
  p_history (word_limit_producer W checked P) (limit_new inner n) (PActive xs last 0) h s a <->
  p_history (limit_producer P) (limit_new inner n) (PActive xs last 0) h s a.
Proof.
  intros W checked S T F E P inner n xs last h s a.
  apply (@p_agree _ _ _ _ _ _ (@limw S T F E)); [apply limw_do|apply limw_step|cbn; lia].
Qed.

Theorem C75_limit_consumer : forall W checked S T F E A (M : machine A T F (option E)) (C : bulk_consumer S T F E) inner n a0 h s a,
  c_history (word_limit_consumer W checked C) M (limit_new inner n) (CActive a0 0 []) h s a <->
  c_history (limit_consumer C) M (limit_new inner n) (CActive a0 0 []) h s a.
Proof.
  intros W checked S T F E A M C inner n a0 h s a.
  apply (@c_agree _ _ _ _ _ _ _ M (@limcw S T A) (fun _ => True)); auto.
  - intros s1 a1 o H1 _ H2. eapply limcw_do; eassumption.
  - intros s1 a1 o s2 r a2 H1 _ H2 H3 H4. eapply limcw_step; eassumption.
  - cbn. split; lia.
Qed.

(** A user who marks more than there is: a build with overflow checks stops at once. One without them carries on. [Limit] hands the
    amount on, and its limit is then one of nearly [W] items, that is, none at all. The slices continue at an earlier offset. *)
Theorem C75_overstepping :
  (forall W S T F E (P : bulk_producer S T F E) n (s : limit S), lim_remaining s < n < W ->
     p_consider (word_limit_producer W true P) n s = Panic /\
     forall i r, p_consider P n (lim_inner s) = Ret (i, r) ->
       exists s', p_consider (word_limit_producer W false P) n s = Ret (s', r) /\ lim_inner s' = i /\ lim_remaining s' + n = W + lim_remaining s) /\
  (forall W S T F E (C : bulk_consumer S T F E) n (s : limit S), lim_remaining s < n < W ->
     c_consume_slots (word_limit_consumer W true C) n s = Panic /\
     forall i r, c_consume_slots C n (lim_inner s) = Ret (i, r) ->
       exists s', c_consume_slots (word_limit_consumer W false C) n s = Ret (s', map_err Some r) /\ lim_inner s' = i /\
         lim_remaining s' + n = W + lim_remaining s) /\
  (forall W T n (s : from_slice T), n < W <= fs_offset s + n ->
     p_consider (word_from_slice W true) n s = Panic /\
     exists s', p_consider (word_from_slice W false) n s = Ret (s', Ok tt) /\ fs_slice s' = fs_slice s /\ fs_offset s' + W = fs_offset s + n /\ fs_offset s' < fs_offset s) /\
  (forall W T n (s : into_slice T), n < W <= is_offset s + n ->
     c_consume_slots (word_into_slice W true) n s = Panic /\
     exists s', c_consume_slots (word_into_slice W false) n s = Ret (s', Ok tt) /\ is_slice s' = is_slice s /\ is_offset s' + W = is_offset s + n /\ is_offset s' < is_offset s).
Proof.
  split; [|split; [|split]].
  - intros W S T F E P n s H. cbn. unfold word_limit_consider, wsub. replace (n <=? lim_remaining s) with false by (symmetry; apply Nat.leb_gt; lia).
    split; [reflexivity|]. intros i r Hi. cbn. rewrite Hi. eexists. split; [reflexivity|]. cbn. split; [reflexivity|lia].
  - intros W S T F E C n s H. cbn. unfold word_limit_consume_slots, wsub. replace (n <=? lim_remaining s) with false by (symmetry; apply Nat.leb_gt; lia).
    split; [reflexivity|]. intros i r Hi. cbn. rewrite Hi. eexists. split; [reflexivity|]. cbn. split; [reflexivity|lia].
  - intros W T n s H. cbn. unfold word_from_slice_consider, wadd. replace (fs_offset s + n <? W) with false by (symmetry; apply Nat.ltb_ge; lia).
    split; [reflexivity|]. eexists. split; [reflexivity|]. cbn. split; [reflexivity|split; lia].
  - intros W T n s H. cbn. unfold word_into_slice_consume_slots, wadd. replace (is_offset s + n <? W) with false by (symmetry; apply Nat.ltb_ge; lia).
    split; [reflexivity|]. eexists. split; [reflexivity|]. cbn. split; [reflexivity|split; lia].
Qed.

Example C75_overstepping_ex :
  p_consider (word_limit_producer 256 true (word_from_slice 256 true)) 3 (mk_limit (mk_from_slice [7; 8; 9; 10] 0) 2) = Panic /\
  p_consider (word_limit_producer 256 false (word_from_slice 256 false)) 3 (mk_limit (mk_from_slice [7; 8; 9; 10] 0) 2) =
    Ret (mk_limit (mk_from_slice [7; 8; 9; 10] 3) 255, Ok tt) /\
  p_consider (word_from_slice 256 true) 254 (mk_from_slice [7; 8; 9; 10] 3) = Panic /\
  p_consider (word_from_slice 256 false) 254 (mk_from_slice [7; 8; 9; 10] 3) = Ret (mk_from_slice [7; 8; 9; 10] 1, Ok tt).
Proof. repeat split. Qed.

(** The checker of the rules: in every state, for every amount, permitted or not. *)
Theorem C75_checker : forall W checked S T F E (P : bulk_producer S T F E) (C : bulk_consumer S T F E) n s,
  word_invariant_consider W checked P n s = invariant_consider P n s /\
  word_invariant_consume_slots W checked C n s = invariant_consume_slots C n s.
Proof.
  intros. split; [apply word_invariant_consider_eq|apply word_invariant_consume_slots_eq].
Qed.

(** The cyclic indices of [TestYielder], of the exposed sizes and of the scramblers. *)
Theorem C75_indices : forall W checked,
  (forall y, length (y_pattern y) < W -> word_yielder_poll W checked y = yielder_poll y) /\
  (forall sz, length (fst sz) < W -> word_next_size W checked sz = next_size sz) /\
  (forall S T F E (s : pscr S T F E), ps_index s < length (ps_operations s) -> length (ps_operations s) < W ->
     word_pscr_advance W checked s = pscr_advance s) /\
  (forall S T (s : cscr S T), cs_index s < length (cs_operations s) -> length (cs_operations s) < W ->
     word_cscr_advance W checked s = cscr_advance s).
Proof.
  intros W checked. splits.
  - apply word_yielder_poll_eq.
  - apply word_next_size_eq.
  - intros. now apply word_pscr_advance_eq.
  - intros. now apply word_cscr_advance_eq.
Qed.

(** The countdown of [TestConsumer]. *)
Theorem C75_test_consumer : forall W checked T F E A (d : T) (M : machine A T F E) error n sizes pattern a0 h s a,
  c_history (word_test_consumer W checked d) M (test_consumer_build error n sizes pattern) (CActive a0 0 []) h s a <->
  c_history (test_consumer d) M (test_consumer_build error n sizes pattern) (CActive a0 0 []) h s a.
Proof.
  intros W checked T F E A d M error n sizes pattern a0 h s a.
  apply (@c_agree _ _ _ _ _ _ _ M (@tcw A T F E) (fun _ => True)); auto.
  - intros s1 a1 o H1 _ H2. eapply tcw_do; eassumption.
  - intros s1 a1 o s2 r a2 H1 _ H2 H3 H4. eapply tcw_step; eassumption.
  - cbn. split; lia.
Qed.

(** [IntoVec]. [max_len] is how many items a vector can hold. As long as twice the number of collected items, plus one, is
    not more than that, the words change nothing ... *)
Theorem C75_into_vec : forall W checked T (d : T) max_len v h s a, max_len < W -> length v <= max_len ->
  2 * length (consumed_items a) + 1 <= max_len ->
  c_history (word_into_vec W checked d max_len) (collect_machine T unit infallible) (into_vec_from_vec v) (CActive v 0 []) h s a <->
  c_history (into_vec_consumer d) (collect_machine T unit infallible) (into_vec_from_vec v) (CActive v 0 []) h s a.
Proof. intros W checked T d max_len v h s a HW HL HF. now apply word_into_vec_history. Qed.

(** ... and every further permitted call returns, with a permitted answer. *)
Theorem C75_into_vec_step : forall W checked T (d : T) max_len v h s a o, max_len < W -> length v <= max_len ->
  c_history (word_into_vec W checked d max_len) (collect_machine T unit infallible) (into_vec_from_vec v) (CActive v 0 []) h s a ->
  2 * length (consumed_items a) + 1 <= max_len -> c_permitted a o ->
  exists s' r a', c_do (word_into_vec W checked d max_len) o s = Ret (s', r) /\ c_answer (collect_machine T unit infallible) a o r a'.
Proof. intros W checked T d max_len v h s a o HW HL HH HF HP. exact (word_into_vec_step HW o HL HH HF HP). Qed.

(** Beyond that, a full vector does not take another item, even if it would fit: the code panics, in both builds. *)
Theorem C75_into_vec_full : forall W checked T (d : T) max_len v x, max_len < W -> length v <= max_len ->
  c_consume (word_into_vec W checked d max_len) x (into_vec_from_vec v) = Panic <-> max_len < 2 * length v + 1.
Proof.
  intros W checked T d max_len v x HW HL. cbn. rewrite word_consume_full by assumption.
  destruct (Nat.leb_spec (2 * length v + 1) max_len) as [H|H].
  - split; [|lia]. destruct (@iv_consume_ok T d (into_vec_from_vec v) v 0 [] x (iv_rel_from_vec v)) as (s' & E1 & _). rewrite E1. discriminate.
  - split; auto.
Qed.

(** The slots that [TestConsumer] exposes: it makes room for up to 2048 of them. *)
Theorem C75_test_consumer_expose : forall W checked T F E (d : T) max_len (s : test_consumer_state T F E), max_len < W ->
  iv_consumed (tc_inner s) <= length (iv_v (tc_inner s)) <= max_len -> 2 * (iv_consumed (tc_inner s) + 2048) <= max_len + 1 ->
  match tc_sizes s with Some (sizes, _) => length sizes < W | None => True end ->
  word_test_consumer_expose W checked d max_len s = test_consumer_expose d s.
Proof. intros W checked T F E d max_len s HW H1 H2 H3. now apply word_tc_expose_eq. Qed.

Theorem C75_grow : forall W checked T (d : T) max_len fuel min_len i, max_len < W ->
  iv_consumed i <= length (iv_v i) <= max_len -> 2 * (iv_consumed i + min_len) <= max_len + 1 ->
  word_tc_grow W checked d max_len fuel min_len i = tc_grow d fuel min_len i.
Proof. intros W checked T d max_len fuel min_len i HW H1 H2. now apply word_tc_grow_eq. Qed.

(** Items that take up memory: the computation of the new length never overflows, what panics is the allocation. *)
Theorem C75_into_vec_sized : forall half checked size n, 1 <= size -> n * size < half ->
  wdouble (2 * half) checked n = Ret (n + n) /\ wadd (2 * half) checked (n + n) 1 = Ret (2 * n + 1).
Proof.
  intros half checked size n H1 H2. assert (n < half) by nia. unfold wdouble. rewrite !wadd_ok by lia.
  split; [reflexivity|]. f_equal. lia.
Qed.

(** Items of size zero: a vector may hold [W - 1] of them, but already from half of that on a full [IntoVec] panics at the next
    item, in both builds: the computation of the new length overflows, or wraps around, which truncates the vector. *)
Theorem C75_zero_sized_refuted : forall W checked n, W <= 2 * n + 1 -> n + 1 < W ->
  exists v : list unit, length v = n /\ length v + 1 <= W - 1 /\
    c_consume (word_into_vec W checked tt (W - 1)) tt (into_vec_from_vec v) = Panic.
Proof.
  intros W checked n H1 H2. exists (repeat tt n). rewrite repeat_length. splits; [reflexivity|lia|].
  apply C75_into_vec_full; rewrite ?repeat_length; lia.
Qed.

(** Full slices, for lawful consumers and producers. *)
Theorem C75_bulk_consume_full_slice : forall W checked S A T F E (C : bulk_consumer S T F E) (M : machine A T F E) R D,
  lawful_consumer C M R D -> forall fuel buf s a k w, R s a k w -> length buf < W ->
  word_bulk_consume_full_slice W checked fuel C buf s = bulk_consume_full_slice fuel C buf s.
Proof.
  intros W checked S A T F E C M R D L fuel buf s a k w HR HW.
  unfold word_bulk_consume_full_slice, bulk_consume_full_slice. eapply word_bulk_consume_full_slice_eq; try eassumption. lia.
Qed.

Theorem C75_bulk_overwrite_full_slice : forall W checked S T F E (P : bulk_producer S T F E) R D,
  lawful_producer P R D -> forall fuel buf s xs l k, R s xs l k -> length buf < W ->
  word_bulk_overwrite_full_slice W checked fuel P buf s = bulk_overwrite_full_slice fuel P buf s.
Proof.
  intros W checked S T F E P R D L fuel buf s xs l k HR HW.
  unfold word_bulk_overwrite_full_slice, bulk_overwrite_full_slice. eapply word_bulk_overwrite_full_slice_eq; try eassumption. lia.
Qed.

(** [pipe_at_most] for all producers and consumers, [bulk_pipe_at_most] for lawful ones. *)
Theorem C75_pipe_at_most : forall W checked SP SC T F PE CE (P : producer SP T F PE) (C : consumer SC T F CE) count fuel sp sc,
  count < W -> count < fuel ->
  word_pipe_at_most W checked fuel P C count sp sc = pipe_at_most P C count sp sc.
Proof. intros. apply word_pipe_at_most_eq; auto. Qed.

Theorem C75_bulk_pipe_at_most : forall W checked SP SC A T F PE CE (P : bulk_producer SP T F PE) RP DP
  (C : bulk_consumer SC T F CE) (M : machine A T F CE) RC DC,
  lawful_producer P RP DP -> lawful_consumer C M RC DC ->
  forall count fuel sp xs l k sc a kc w, RP sp xs l k -> RC sc a kc w -> count < W ->
  word_bulk_pipe_at_most W checked fuel P C count sp sc = bulk_pipe_at_most fuel P C count sp sc.
Proof.
  intros W checked SP SC A T F PE CE P RP DP C M RC DC LP LC count fuel sp xs l k sc a kc w HP HC HW.
  unfold word_bulk_pipe_at_most, bulk_pipe_at_most. eapply word_bulk_pipe_at_most_eq; try eassumption. lia.
Qed.

(** Numbers below 8. A slice of 7 items, the longest one: the offset becomes 7. Marking more items than are exposed is not
    permitted; what happens then depends on the build. *)
Example C75_example_slice : forall checked,
  exists s, p_history (word_from_slice 8 checked) (from_slice_new [1; 2; 3; 4; 5; 6; 7]) (PActive [1; 2; 3; 4; 5; 6; 7] (Ok tt) 0)
    [(PExpose, PASlice (Ok (inl [1; 2; 3; 4; 5; 6; 7]))); (PConsider 6, PAUnit (Ok tt)); (PProduce, PAItem (Ok (inl 7)));
     (PProduce, PAItem (Ok (inr tt)))] s (PEnded) /\
  fs_offset s = 7 /\
  p_consider (word_from_slice 8 true) 2 s = Panic /\
  p_consider (word_from_slice 8 false) 2 s = Ret (mk_from_slice [1; 2; 3; 4; 5; 6; 7] 1, Ok tt).
Proof.
  intros checked. eexists. split; [|split; [|split]].
  - destruct checked; run_p.
  - reflexivity.
  - reflexivity.
  - reflexivity.
Qed.

(** Seven slots. *)
Example C75_example_into_slice : forall checked,
  exists s, c_history (word_into_slice 8 checked) (filling_machine nat unit 7) (into_slice_new (repeat 0 7)) (CActive [] 0 [])
    [(CConsume 1, CAUnit (Ok tt)); (CExpose, CASlots (Ok 6)); (CWrite [2; 3; 4; 5; 6; 7], CANone); (CConsumeSlots 6, CAUnit (Ok tt));
     (CConsume 8, CAUnit (Err tt))] s (CEnded [1; 2; 3; 4; 5; 6; 7]) /\
  is_slice s = [1; 2; 3; 4; 5; 6; 7] /\ is_offset s = 7.
Proof.
  intros checked. eexists. split; [|split].
  - destruct checked; run_c.
  - reflexivity.
  - reflexivity.
Qed.

(** A limit of 3 around a slice. Again the subtraction goes wrong only after a mistake of the user. *)
Example C75_example_limit : forall checked,
  exists s, p_history (word_limit_producer 8 checked from_slice_producer) (limit_new (from_slice_new [1; 2; 3; 4]) 3) (PActive [1; 2; 3] (Ok None) 0)
    [(PExpose, PASlice (Ok (inl [1; 2; 3]))); (PConsider 2, PAUnit (Ok tt))] s (PActive [3] (Ok None) 1) /\
  lim_remaining s = 1 /\
  p_consider (word_limit_producer 8 true from_slice_producer) 2 s = Panic /\
  (exists s', p_consider (word_limit_producer 8 false from_slice_producer) 2 s = Ret (s', Ok tt) /\ lim_remaining s' = 7).
Proof.
  intros checked. eexists. split; [|split; [|split]].
  - destruct checked; run_p.
  - reflexivity.
  - reflexivity.
  - eexists. split; reflexivity.
Qed.

(** The checker refuses exactly that. *)
Example C75_example_checker :
  word_invariant_consider 8 false from_slice_producer 2 (mk_invariant (from_slice_new [1; 2; 3]) true 1) = Panic /\
  exists s, word_invariant_consider 8 false from_slice_producer 2 (mk_invariant (from_slice_new [1; 2; 3]) true 3) = Ret (s, Ok tt) /\ inv_exposed s = 1.
Proof. split; [reflexivity|]. eexists. split; reflexivity. Qed.

(** A pattern of 7 entries, at the last one: [7 mod 7]. *)
Example C75_example_indices : forall checked,
  word_yielder_poll 8 checked (mk_yielder (repeat true 7) 6) = yielder_poll (mk_yielder (repeat true 7) 6) /\
  word_next_size 8 checked ([1; 2; 3; 4; 5; 6; 7], 6) = Ret (7, ([1; 2; 3; 4; 5; 6; 7], 0)).
Proof. intros [|]; split; reflexivity. Qed.

(** A consumer that fails after two items. *)
Example C75_example_test_consumer : forall checked,
  exists s, c_history (word_test_consumer 8 checked 0) (failing_machine nat unit 9) (test_consumer_build 9 2 None None) (CActive (mk_tstate [] None 2 false) 0 [])
    [(CExpose, CASlots (Ok 2)); (CWrite [1; 2], CANone); (CConsumeSlots 2, CAUnit (Ok tt)); (CConsume 3, CAUnit (Err 9))]
    s (CEnded (mk_tstate [1; 2] None 0 true)).
Proof. intros checked. eexists. destruct checked; run_c. Qed.

(** One collected item, and room for three more: the vector grows from two to five. *)
Example C75_example_grow : forall checked,
  word_tc_grow 8 checked 0 7 4 3 (mk_into_vec [5; 0] 1) = Ret (mk_into_vec [5; 0; 0; 0; 0] 1) /\ 2 * (1 + 3) <= 7 + 1.
Proof. intros [|]; split; try reflexivity; lia. Qed.
Example C75_example_expose : forall checked,
  exists s, word_test_consumer_expose 8 checked 0 7 (mk_tc (mk_into_vec [5; 0] 1) None (Some 9) 9 (Some ([3; 1], 1)) None : test_consumer_state nat unit nat) = Ret (s, Ok 1).
Proof. intros [|]; eexists; vm_compute; reflexivity. Qed.

(** A vector of at most 7 items. With 3 items it grows to 7 ... *)
Example C75_example_into_vec : forall checked,
  exists s, c_history (word_into_vec 8 checked 0 7) (collect_machine nat unit infallible) (into_vec_from_vec [1; 2]) (CActive [1; 2] 0 [])
    [(CConsume 3, CAUnit (Ok tt)); (CExpose, CASlots (Ok 2)); (CWrite [4; 5], CANone)] s (CActive [1; 2; 3] 2 [4; 5]) /\
  2 * length (consumed_items (CActive [1; 2; 3] 2 [4; 5])) + 1 <= 7 /\ length (iv_v s) = 5.
Proof.
  intros checked. eexists. split; [|split].
  - destruct checked; run_c.
  - cbn. lia.
  - reflexivity.
Qed.

(** ... with 4 items of size zero it panics, although it could hold 7 of them: [2 * 4 + 1] overflows, or is 1. *)
Example C75_example_zero_sized : forall checked,
  c_consume (word_into_vec 8 checked tt 7) tt (into_vec_from_vec [tt; tt; tt]) <> Panic /\
  c_consume (word_into_vec 8 checked tt 7) tt (into_vec_from_vec [tt; tt; tt; tt]) = Panic /\
  word_make_space_if_needed 8 false tt 7 (into_vec_from_vec [tt; tt; tt; tt]) = Ret (mk_into_vec [tt] 4).
Proof. intros checked. split; [|split]; [destruct checked; discriminate|destruct checked; reflexivity|reflexivity]. Qed.

(** Items of two bytes, a vector of at most three bytes: one of them. *)
Example C75_example_sized : forall checked, wdouble 8 checked 1 = Ret 2 /\ wadd 8 checked 2 1 = Ret 3.
Proof. intros [|]; split; reflexivity. Qed.

(** Seven items go through, and no more. *)
Example C75_example_pipes : forall checked,
  (exists s, word_bulk_consume_full_slice 8 checked 9 (into_vec_consumer 0) [1; 2; 3; 4; 5; 6; 7] (into_vec_from_vec [0]) = Ret (s, Ok tt)
     /\ firstn 8 (iv_v s) = [0; 1; 2; 3; 4; 5; 6; 7]) /\
  (exists s, word_bulk_overwrite_full_slice 8 checked 9 from_slice_producer (repeat 0 3) (from_slice_new [1; 2; 3; 4]) = Ret (s, ([1; 2; 3], Ok tt))) /\
  (exists sp sc, word_pipe_at_most 8 checked 8 (from_slice_producer : producer _ _ _ _) (into_vec_consumer 0 : consumer _ _ _ _) 7
      (from_slice_new [1; 2; 3; 4; 5; 6; 7; 8]) (into_vec_from_vec []) = Ret (sp, sc, Ok 7) /\ fs_offset sp = 7) /\
  (exists sp sc, word_bulk_pipe_at_most 8 checked 9 from_slice_producer (into_vec_consumer 0) 7
      (from_slice_new [1; 2; 3; 4; 5; 6; 7; 8]) (into_vec_from_vec []) = Ret (sp, sc, Ok 7) /\ fs_offset sp = 7).
Proof. intros [|]; splits; do 2 try eexists; try split; vm_compute; reflexivity. Qed.

Print Assumptions C75_from_slice.
Print Assumptions C75_from_slice_conforms.
Print Assumptions C75_into_slice.
Print Assumptions C75_into_slice_conforms.
Print Assumptions C75_limit_producer.
Print Assumptions C75_limit_consumer.
Print Assumptions C75_overstepping.
Print Assumptions C75_checker.
Print Assumptions C75_indices.
Print Assumptions C75_test_consumer.
Print Assumptions C75_test_consumer_expose.
Print Assumptions C75_grow.
Print Assumptions C75_into_vec.
Print Assumptions C75_into_vec_step.
Print Assumptions C75_into_vec_full.
Print Assumptions C75_into_vec_sized.
Print Assumptions C75_zero_sized_refuted.
Print Assumptions C75_bulk_consume_full_slice.
Print Assumptions C75_bulk_overwrite_full_slice.
Print Assumptions C75_pipe_at_most.
Print Assumptions C75_bulk_pipe_at_most.

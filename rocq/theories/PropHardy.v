(** C94: dropping futures causes no panic. *)
From Coq Require Import Bool List Arith Lia.
From Coq.Init Require Import Byte.
From Verif Require Import Prelude Traits BasicModel AdaptorModel ScramblerModel CodecModel EndianModel TowerModel Contracts AdaptorSpec BasicProofs
  RulesSpec SafeSpec SafeProofs AsyncModel AsyncAdaptorModel AsyncTowerModel AsyncSpec AsyncProofs AsyncMergeModel AsyncMergeSpec AsyncAdaptorProofs
  AsyncSuspendProofs AbideSpec HardySpec HardyProofs.
Import ListNotations.

(** What a caller gets to see, and whether it panics: calls with numbers of polls, cut off where they break a rule. *)
Definition p_drops {S T F E} (P : a_bulk_producer S T F E) (ops : list (pop T * nat)) (s : S) : outcome (list (option (pans T F E))) :=
  omap snd (obeying (fun m (on : pop T * nat) => p_calls true m (fst on))
    (fun m on a => match a with Some a => @p_saw T F E m (fst on) a | None => p_gave_up m (fst on) end)
    (fun on s => omap left_of (polls (snd on) (ap_future P (fst on)) s)) ops pmon_new s).
Definition c_drops {S T F E} (C : a_bulk_consumer S T F E) (ops : list (cop T F * nat)) (s : S) : outcome (list (option (cans E))) :=
  omap snd (obeying (fun m (on : cop T F * nat) => c_calls m (fst on))
    (fun m on a => match a with Some a => @c_saw T F E m (fst on) a | None => c_gave_up m (fst on) end)
    (fun on s => omap left_of (polls (snd on) (ac_future C (fst on)) s)) ops cmon_new s).

(** Whoever endures callers that drop futures endures those that do not. *)
Theorem C94_calm :
  (forall S T F E sl (P : a_bulk_producer S T F E) s, hardy_producer sl P s -> calm_producer sl (blocking_bulk_producer P) s) /\
  (forall S T F E (C : a_bulk_consumer S T F E) s, hardy_consumer C s -> calm_consumer (blocking_bulk_consumer C) s).
Proof.
  split; intros S T F E.
  - intros sl P s H. eapply hardy_calm; [exact (ap_future_run P)|exact H].
  - intros C s H. eapply hardy_calm; [exact (ac_future_run C)|exact H].
Qed.
Print Assumptions C94_calm.

(** ** Where it starts *)

(** The basic producers and consumers never panic, whatever futures their callers drop, *)
Theorem C94_basics :
  (forall T (l : list T), hardy_producer true a_from_slice (from_slice_new l)) /\
  (forall T F E (f : F), hardy_producer true (@a_empty T F E) (empty_new f)) /\
  (forall T F E (items : list T) (last : res F E) sizes pattern, match sizes with Some l => Forall (fun n => 1 <= n) l | None => True end ->
     hardy_producer true a_test_producer (test_producer_build items last sizes pattern)) /\
  (forall T (d : T) v, hardy_consumer (a_into_vec d) (into_vec_from_vec v)) /\
  (forall T F E (d : T) (e : E) n sizes pattern, match sizes with Some l => Forall (fun n => 1 <= n) l | None => True end ->
     hardy_consumer (a_test_consumer (F := F) d) (test_consumer_build e n sizes pattern)).
Proof.
  split; [exact from_slice_hardy|]. split; [exact empty_hardy|]. split; [exact test_producer_hardy|]. split; [exact into_vec_hardy|].
  exact test_consumer_hardy.
Qed.
Print Assumptions C94_basics.

(** and neither does anything lawful that is the same to the contract while it is pending, uses the default bulk methods, and tolerates an
    amount of zero. *)
Theorem C94_lawful_producer : forall S T F E (P : a_bulk_producer S T F E) P0 R D sl,
  same_bulk_producer (blocking_bulk_producer P) P0 -> lawful_producer_core P0 R D -> (sl = true -> lawful_slurp P0 R D) -> waiting_producer P R ->
  P = a_bulk_producer_of (ap_produce P) (ap_slurp P) (ap_expose P) (ap_consider P) ->
  (forall s xs l, R s xs l 0 -> safely (fun x => snd x = Ok tt -> R (fst x) xs l 0) (p_consider P0 0 s)) ->
  forall s xs l, R s xs l 0 -> hardy_producer sl P s.
Proof. intros S T F E P P0 R D sl H1 H2 H3 H4 H5 H6 s xs l H. exact (lawful_producer_hardy H1 H2 H3 H4 H5 H6 _ _ _ _ H). Qed.
Print Assumptions C94_lawful_producer.
Theorem C94_lawful_consumer : forall S T F E A (C : a_bulk_consumer S T F E) C0 (M : machine A T F E) R D,
  same_bulk_consumer (blocking_bulk_consumer C) C0 -> lawful_consumer_core C0 M R D -> waiting_consumer C R ->
  C = a_bulk_consumer_of (ac_consume C) (ac_close C) (ac_flush C) (ac_expose C) (ac_write C) (ac_consume_slots C) ->
  (forall s a, R s a 0 [] -> safely (fun x => snd x = Ok tt -> R (fst x) a 0 []) (c_consume_slots C0 0 s)) ->
  forall s a, R s a 0 [] -> hardy_consumer C s.
Proof. intros S T F E A C C0 M R D H1 H2 H3 H4 H5 s a H. exact (lawful_consumer_hardy H1 H2 H3 H4 H5 _ _ _ _ H). Qed.
Print Assumptions C94_lawful_consumer.

(** A test producer that returns [Pending] before two of three results: the first two futures are dropped; so is the one of [consider_produced] in
    the second case, and the rules then forbid the [consider_produced] that follows. *)
Definition hardy_ex : test_producer_state nat nat nat := test_producer_build [1; 2; 3] (Ok 9) (Some [2]) (Some [true; true; false]).
Example C94_basics_ex :
  p_drops a_test_producer [(PProduce, 1); (PExpose, 1); (PExpose, 1); (PConsider 2, 3); (PProduce, 3)] hardy_ex =
    Ret [None; None; Some (PASlice (Ok (inl [1; 2]))); Some (PAUnit (Ok tt)); Some (PAItem (Ok (inl 3)))] /\
  p_drops a_test_producer [(PExpose, 3); (PConsider 1, 1); (PConsider 1, 3)] hardy_ex = Ret [Some (PASlice (Ok (inl [1; 2]))); None] /\
  c_drops (a_test_consumer 0) [(CConsume 1, 1); (CExpose, 2); (CWrite [4], 1); (CConsumeSlots 1, 1); (CConsume 5, 2); (CClose 7, 1); (CFlush, 2)]
    (test_consumer_build 3 8 (Some [2]) (Some [true; false])) = Ret [None; Some (CASlots (Ok 2)); Some CANone; None; Some (CAUnit (Ok tt)); None].
Proof. repeat split; vm_compute; reflexivity. Qed.
Example C94_lawful_ex : hardy_producer true (@a_test_producer nat nat nat) hardy_ex.
Proof.
  eapply C94_lawful_producer; [apply same_test_producer|apply test_producer_core|intros _; apply test_producer_slurp_lawful|apply test_producer_waiting
    |reflexivity|exact (@tp_consider_zero nat nat nat)|apply tp_rel_build; repeat constructor].
Qed.
Example C94_lawful_consumer_ex : hardy_consumer (@a_test_consumer nat nat nat 0) (test_consumer_build 3 8 (Some [2]) (Some [true; false])).
Proof.
  eapply C94_lawful_consumer; [apply same_test_consumer|apply test_consumer_core|apply test_consumer_waiting|reflexivity
    |exact (@tc_consume_slots_zero nat nat nat 0 3)|apply tc_rel_build; repeat constructor].
Qed.

(** ** Adaptors *)
Theorem C94_limit :
  (forall S T F E sl (P : a_bulk_producer S T F E) s n, hardy_producer sl P s -> hardy_producer sl (a_limit_producer P) (limit_new s n)) /\
  (forall S T F E (C : a_bulk_consumer S T F E) s n, hardy_consumer C s -> hardy_consumer (a_limit_consumer C) (limit_new s n)).
Proof.
  split; [intros S T F E sl P s n; exact (@limit_producer_hardy S T F E sl P s n 0)|intros S T F E C s n; exact (@limit_consumer_hardy S T F E C s n 0 0)].
Qed.
Print Assumptions C94_limit.

Theorem C94_map_final :
  (forall S T F E B sl (P : a_bulk_producer S T F E) s (g : F -> B), hardy_producer sl P s -> hardy_producer sl (a_map_final_producer P) (with_fun_new s g)) /\
  (forall S T F E B (C : a_bulk_consumer S T F E) s (g : B -> F), hardy_consumer C s -> hardy_consumer (a_map_final_consumer C) (with_fun_new s g)).
Proof.
  split; [intros S T F E B sl P s g; exact (@map_final_producer_hardy S T F E B sl P s g 0)
         |intros S T F E B C s g; exact (@map_final_consumer_hardy S T F E B C s g 0 0)].
Qed.
Print Assumptions C94_map_final.

(** The checker may be wrong about what is on display after a dropped future, but only by too much. *)
Theorem C94_invariant :
  (forall S T F E sl (P : a_bulk_producer S T F E) s, hardy_producer sl P s -> hardy_producer sl (a_invariant_producer P) (invariant_new s)) /\
  (forall S T F E (C : a_bulk_consumer S T F E) s, hardy_consumer C s -> hardy_consumer (a_invariant_consumer C) (invariant_new s)).
Proof.
  split; [intros S T F E sl P s; exact (@invariant_producer_hardy S T F E sl P s 0)|intros S T F E C s; exact (@invariant_consumer_hardy S T F E C s 0 0)].
Qed.
Print Assumptions C94_invariant.

Theorem C94_map_item :
  (forall S T F E U W sl (P : a_buffered_producer S T F E) (f : W -> T -> W * U) s w,
     hardy_buffered_producer sl P s -> hardy_buffered_producer sl (a_map_item_producer P f) (mk_map_item s w)) /\
  (forall S T F E U W (C : a_buffered_consumer S T F E) (f : W -> U -> W * T) s w,
     hardy_buffered_consumer C s -> hardy_buffered_consumer (a_map_item_consumer C f) (mk_map_item s w)).
Proof. split; [exact @map_item_producer_hardy|exact @map_item_consumer_hardy]. Qed.
Print Assumptions C94_map_item.

Theorem C94_as_buffered :
  (forall S T F E sl (P : a_bulk_producer S T F E) s, hardy_producer sl P s -> hardy_buffered_producer sl P s) /\
  (forall S T F E (C : a_bulk_consumer S T F E) s, hardy_consumer C s -> hardy_buffered_consumer C s).
Proof. split; [intros S T F E sl P s; exact (@hardy_p_buffered S T F E sl P s 0)|intros S T F E C s; exact (@hardy_c_buffered S T F E C s 0 0)]. Qed.
Print Assumptions C94_as_buffered.

(** The limit counts an item that was not produced, because the future was dropped: three items and a limit of three, but only two are to be had. *)
Example C94_limit_ex :
  hardy_producer true (a_limit_producer a_test_producer) (limit_new hardy_ex 3) /\
  p_drops (a_limit_producer a_test_producer) [(PProduce, 1); (PExpose, 3); (PConsider 2, 3); (PExpose, 1); (PProduce, 1)] (limit_new hardy_ex 3) =
    Ret [None; Some (PASlice (Ok (inl [1; 2]))); Some (PAUnit (Ok tt)); Some (PASlice (Ok (inr None)))].
Proof. split; [apply (proj1 C94_limit); exact C94_lawful_ex|vm_compute; reflexivity]. Qed.
Example C94_map_final_ex :
  hardy_producer true (a_map_final_producer a_test_producer) (with_fun_new hardy_ex (fun f => f + 1)) /\
  p_drops (a_map_final_producer a_test_producer) [(PExpose, 3); (PConsider 2, 3); (PProduce, 3); (PProduce, 2); (PProduce, 3); (PProduce, 3)] (with_fun_new hardy_ex (fun f => f + 1)) =
    Ret [Some (PASlice (Ok (inl [1; 2]))); Some (PAUnit (Ok tt)); Some (PAItem (Ok (inl 3))); None; Some (PAItem (Ok (inr 10)))].
Proof. split; [apply (proj1 C94_map_final); exact C94_lawful_ex|vm_compute; reflexivity]. Qed.
(** Two items on display, and a dropped [consider_produced]: the checker has forgotten them, as has the caller. *)
Example C94_invariant_ex :
  hardy_producer true (a_invariant_producer a_test_producer) (invariant_new hardy_ex) /\
  p_drops (a_invariant_producer a_test_producer) [(PExpose, 3); (PConsider 2, 1); (PConsider 0, 3); (PExpose, 3); (PConsider 1, 3); (PConsider 1, 3)] (invariant_new hardy_ex) =
    Ret [Some (PASlice (Ok (inl [1; 2]))); None; Some (PAUnit (Ok tt)); Some (PASlice (Ok (inl [1; 2]))); Some (PAUnit (Ok tt)); Some (PAUnit (Ok tt))] /\
  bind (polls 1 (ap_future (a_invariant_producer a_test_producer) (PConsider 2)) (mk_invariant hardy_ex true 2))
    (fun x => polls 1 (ap_future (a_invariant_producer a_test_producer) (PConsider 1)) (fst x)) = Panic.
Proof. split; [apply (proj1 C94_invariant); exact C94_lawful_ex|]. split; vm_compute; reflexivity. Qed.
Example C94_map_item_ex : hardy_buffered_producer true (a_map_item_producer a_test_producer (fun w x => (w + 1, x + w))) (mk_map_item hardy_ex 3).
Proof. apply (proj1 C94_map_item). apply C94_as_buffered. exact C94_lawful_ex. Qed.

(** The producer scrambler, in debug and release builds, unless [slurp] is called on it, and the consumer scrambler in release builds: the exceptions
    are those of C87. *)
Theorem C94_producer_scrambler : forall S T F E dbg fuel sl (P : a_bulk_producer S T F E) x0 s pat cap,
  0 < cap -> sl = true \/ ~ In ScSlurp pat -> hardy_producer sl P s ->
  hardy_producer false (a_pscr_producer dbg fuel P) (pscr_new_with_capacity x0 s pat cap).
Proof. intros S T F E dbg fuel sl P x0 s pat cap Hc Hs H. exact (@pscr_producer_hardy S T F E dbg fuel sl P x0 s pat cap 0 Hc Hs H). Qed.
Print Assumptions C94_producer_scrambler.
Theorem C94_consumer_scrambler : forall S T F E x0 fuel (C : a_bulk_consumer S T F E) s pat cap, 0 < cap -> hardy_consumer C s ->
  hardy_consumer (a_cscr_consumer false x0 fuel C) (cscr_new_with_capacity x0 s pat cap).
Proof. intros S T F E x0 fuel C s pat cap Hc H. exact (@cscr_consumer_hardy S T F E x0 fuel C s pat cap 0 0 Hc H). Qed.
Print Assumptions C94_consumer_scrambler.

(** Six polls get the scrambler to where it has copied the second and third item, but has not told so yet; the caller then drops that future. Later the
    two items are produced twice (C85), but nothing panics. *)
Example C94_producer_scrambler_ex :
  let P := a_pscr_producer true 20 a_test_producer in
  let s := pscr_new_with_capacity 0 hardy_ex [ScProduce; ScConsiderProduced 2] 3 in
  hardy_producer false P s /\
  p_drops P [(PProduce, 6); (PExpose, 40); (PConsider 3, 40); (PExpose, 40); (PConsider 2, 40); (PProduce, 40)] s =
    Ret [None; Some (PASlice (Ok (inl [1; 2; 3]))); Some (PAUnit (Ok tt)); Some (PASlice (Ok (inl [2; 3]))); Some (PAUnit (Ok tt)); Some (PAItem (Ok (inr 9)))].
Proof.
  split; [|vm_compute; reflexivity]. apply C94_producer_scrambler with (sl := true); [lia|now left|exact C94_lawful_ex].
Qed.
Example C94_consumer_scrambler_ex :
  let C := a_cscr_consumer false 0 20 (a_test_consumer 0) in
  let s := cscr_new_with_capacity 0 (test_consumer_build 3 8 (Some [2]) (Some [true; false]) : test_consumer_state nat nat nat) [ScConsume; ScConsumeSlots 2] 2 in
  hardy_consumer C s /\
  c_drops C [(CConsume 1, 1); (CConsume 2, 1); (CConsume 3, 1); (CFlush, 1); (CExpose, 9); (CWrite [4], 1); (CConsumeSlots 1, 1); (CFlush, 9)] s =
    Ret [Some (CAUnit (Ok tt)); Some (CAUnit (Ok tt)); None; None; Some (CASlots (Ok 2)); Some CANone; Some (CAUnit (Ok tt)); Some (CAUnit (Ok tt))].
Proof. split; [|vm_compute; reflexivity]. apply C94_consumer_scrambler; [lia|exact C94_lawful_consumer_ex]. Qed.

(** Any tower of adaptors. *)
Theorem C94_towers :
  (forall T F E G S sl (t : ptower T F E G) (P : a_bulk_producer S T F E) s, pt_fits sl t -> hardy_producer sl P s ->
     hardy_producer (pt_slurps sl t) (a_pt_producer P t) (pt_new s t)) /\
  (forall T F E G B S (t : ctower F E G B) (C : a_bulk_consumer S T F E) s, hardy_consumer C s -> hardy_consumer (a_ct_consumer C t) (ct_new s t)).
Proof. split; [exact @ptower_hardy|exact @ctower_hardy]. Qed.
Print Assumptions C94_towers.
Definition hardy_tower : ptower nat nat nat (option nat) :=
  PTScramble true 40 0 [ScConsiderProduced 2; ScSlurp; ScProduce] 2 (PTInvariant (PTLimit 3 (PTMapFinal (fun f : nat => f + 1) PTBase))).
Example C94_towers_ex :
  pt_fits true hardy_tower /\
  p_drops (a_pt_producer a_test_producer hardy_tower) [(PProduce, 3); (PExpose, 2); (PProduce, 40); (PProduce, 2)] (pt_new hardy_ex hardy_tower) =
    Ret [None; Some (PASlice (Ok (inl [1; 2]))); Some (PAItem (Ok (inl 1))); None].
Proof. split; [cbn; auto|vm_compute; reflexivity]. Qed.

(** ** The limits of this *)

(** A consumer that is pending once in each call, and never panics, even if it is closed after a dropped [close]. *)
Definition slow {X} (x : X) : fut unit X := Fut (fun s => Ret (s, AsyncModel.Pending true (ret x))).
Definition slow_consumer : a_bulk_consumer unit nat nat nat :=
  a_bulk_consumer_of (fun _ => slow (Ok tt)) (fun _ => slow (Ok tt)) (slow (Ok tt)) (slow (Ok 5)) (fun _ s => s) (fun _ => slow (Ok tt)).
(** As [hardy_consumer], but a dropped [close] does not forbid further calls. *)
Definition closes_again {S T F E} (C : a_bulk_consumer S T F E) (s : S) : Prop :=
  hardy (@c_calls T F) (@c_saw T F E) (fun _ _ => cmon_new) (ac_future C) s cmon_new.
Lemma slow_consumer_closes_again : closes_again slow_consumer tt.
Proof.
  apply hardy_intro with (Inv := fun _ _ => True); [|exact Logic.I]. intros [] m o _ _. split; [exact Logic.I|].
  destruct o as [x|f| | |ys|n|buf]; cbn; auto.
Qed.

(** MapFinal and Invariant consumers panic if they are closed after a dropped [close], even if the inner consumer does not: they have given their
    function away, or have noted that they are closed, before the inner [close] was ready. *)
Theorem C94_close_refuted :
  (exists S T F E B (C : a_bulk_consumer S T F E) s (g : B -> F), closes_again C s /\ ~ closes_again (a_map_final_consumer C) (with_fun_new s g)) /\
  (exists S T F E (C : a_bulk_consumer S T F E) s, closes_again C s /\ ~ closes_again (a_invariant_consumer C) (invariant_new s)).
Proof.
  split.
  - exists _, _, _, _, _, slow_consumer, tt, (fun f : nat => f). split; [exact slow_consumer_closes_again|].
    intros H. apply (H [(CClose 1, 1); (CClose 1, 1)]). reflexivity.
  - exists _, _, _, _, slow_consumer, tt. split; [exact slow_consumer_closes_again|].
    intros H. apply (H [(CClose 1, 1); (CClose 1, 1)]). reflexivity.
Qed.
Print Assumptions C94_close_refuted.

(** A MapError survives one call only (C87). *)
Theorem C94_map_error_refuted :
  (exists S T F E B (P : a_bulk_producer S T F E) s (g : E -> B), hardy_producer true P s /\ ~ hardy_producer false (a_map_error_producer P) (with_fun_new s g)) /\
  (exists S T F E B (C : a_bulk_consumer S T F E) s (g : E -> B), hardy_consumer C s /\ ~ hardy_consumer (a_map_error_consumer C) (with_fun_new s g)).
Proof.
  split.
  - exists _, _, _, _, nat, (@a_test_producer nat nat nat), hardy_ex, (fun e : nat => e). split; [exact C94_lawful_ex|].
    intros H. apply (H [(PProduce, 3); (PProduce, 3)]). reflexivity.
  - exists _, _, _, _, nat, (@a_test_consumer nat nat nat 0), (test_consumer_build 3 8 (Some [2]) (Some [true; false])), (fun e : nat => e). split; [exact C94_lawful_consumer_ex|].
    intros H. apply (H [(CConsume 1, 2); (CConsume 2, 2)]). reflexivity.
Qed.
Print Assumptions C94_map_error_refuted.

(** ** Merge *)

(** It keeps the futures of its inner producers, so that these need not endure anything; it is itself used in whatever way (C81). *)
Theorem C94_merge : forall S1 S2 T F E sl1 sl2 (P1 : a_buffered_producer S1 T F E) (P2 : a_buffered_producer S2 T F E) fuel acts s1 s2,
  calm_buffered_producer sl1 (blocking_buffered_producer P1) s1 -> calm_buffered_producer sl2 (blocking_buffered_producer P2) s2 ->
  merge_session P1 P2 fuel acts AtStart (a_merge_new P1 P2 s1 s2) <> Panic.
Proof. intros S1 S2 T F E sl1 sl2 P1 P2 fuel acts s1 s2. exact (@merge_hardy S1 S2 T F E sl1 sl2 P1 P2 fuel acts s1 s2). Qed.
Print Assumptions C94_merge.
(** A producer that panics when it is called after a future of it was dropped: the same as a MapFinal whose function is gone. *)
Definition fragile : a_buffered_producer bool nat unit nat :=
  mk_a_buffered_producer
    (mk_a_producer (Fut (fun calling => if calling : bool then Panic else Ret (true, AsyncModel.Pending true (sync (fun _ => Ret (false, Ok (inl 1))))))))
    (ret (Ok tt)).
Example C94_merge_ex :
  calm_buffered_producer true (blocking_buffered_producer fragile) false /\ ~ hardy_buffered_producer true fragile false /\
  seen (merge_session fragile fragile 5 [mk_merge_act false true; mk_merge_act true true; mk_merge_act true false; mk_merge_act true false; mk_merge_act true true] AtStart
    (a_merge_new fragile fragile false false)) = Ret ([1; 1; 1], None).
Proof.
  split; [|split].
  - apply calm_intro with (Inv := fun s _ => s = false); [|reflexivity]. intros s m [] -> _; reflexivity.
  - intros H. apply (H [(BProduce, 1); (BProduce, 1)]). reflexivity.
  - vm_compute. reflexivity.
Qed.

(** ** Pipes *)

(** A pipe does not panic. If it is dropped, both objects may be used again, unless the consumer was being closed; if it is ready, whatever is not over
    may. *)
Theorem C94_pipes :
  (forall SP SC T F PE CE sl (P : a_buffered_producer SP T F PE) (C : a_buffered_consumer SC T F CE) fuel sp sc,
     hardy_buffered_producer sl P sp -> hardy_buffered_consumer C sc ->
     endures (pipe_dropped (hardy_buffered_producer sl P) (hardy_buffered_consumer C) C)
       (fun x r => pipe_leaves (fun _ => False) (hardy_buffered_producer sl P) (hardy_buffered_consumer C) (x, r)) (a_pipe fuel P C) (sp, sc)) /\
  (forall SP SC T F PE CE sl (P : a_buffered_producer SP T F PE) (C : a_buffered_consumer SC T F CE) count sp sc,
     hardy_buffered_producer sl P sp -> hardy_buffered_consumer C sc ->
     endures (pipe_dropped (hardy_buffered_producer sl P) (hardy_buffered_consumer C) C)
       (fun x r => pipe_leaves (fun n => n = count) (hardy_buffered_producer sl P) (hardy_buffered_consumer C) (x, r)) (a_pipe_at_most P C count) (sp, sc)) /\
  (forall SP SC T F PE CE sl (P : a_bulk_producer SP T F PE) (C : a_bulk_consumer SC T F CE), honest_count (blocking_bulk_consumer C) -> forall fuel sp sc,
     hardy_producer sl P sp -> hardy_consumer C sc ->
     endures (pipe_dropped (hardy_producer sl P) (hardy_consumer C) C)
       (fun x r => pipe_leaves (fun _ => False) (hardy_producer sl P) (hardy_consumer C) (x, r)) (a_bulk_pipe fuel P C) (sp, sc)) /\
  (forall SP SC T F PE CE sl (P : a_bulk_producer SP T F PE) (C : a_bulk_consumer SC T F CE), honest_count (blocking_bulk_consumer C) -> forall fuel count sp sc,
     hardy_producer sl P sp -> hardy_consumer C sc ->
     endures (pipe_dropped (hardy_producer sl P) (hardy_consumer C) C)
       (fun x r => pipe_leaves (fun n => n = count) (hardy_producer sl P) (hardy_consumer C) (x, r)) (a_bulk_pipe_at_most fuel P C count) (sp, sc)).
Proof.
  split; [|split; [|split]]; intros SP SC T F PE CE sl P C.
  - intros fuel sp sc H1 H2. apply op_endures. split; [left; cbn; auto|]. exact (pipe_hardy fuel H1 H2).
  - intros count sp sc H1 H2. apply op_endures. split; [left; cbn; auto|]. exact (pipe_at_most_hardy count 0 H1 H2).
  - intros HC fuel sp sc H1 H2. apply op_endures. split; [left; cbn; auto|]. exact (@bulk_pipe_hardy SP SC T F PE CE sl P C HC fuel sp sc 0 0 0 H1 H2).
  - intros HC fuel count sp sc H1 H2. apply op_endures. split; [left; cbn; auto|].
    exact (@bulk_pipe_at_most_hardy SP SC T F PE CE sl P C HC fuel count 0 sp sc 0 0 0 (Nat.le_0_l _) H1 H2).
Qed.
Print Assumptions C94_pipes.

(** The default methods keep the length of the buffer, and count honestly. *)
Theorem C94_defaults :
  (forall S T F E (produce : fut S (res (T + F) E)) slurp expose consider, keeps_length (blocking_bulk_producer (a_bulk_producer_of produce slurp expose consider))) /\
  (forall S T F E (consume : T -> fut S (res unit E)) (close : F -> fut S (res unit E)) flush expose write slots,
     honest_count (blocking_bulk_consumer (a_bulk_consumer_of consume close flush expose write slots))).
Proof. split; [exact a_default_keeps_length|exact a_default_honest_count]. Qed.
Print Assumptions C94_defaults.

(** Dropped after six polls, both objects are used again; dropped after the last but one, the consumer is being closed. *)
Example C94_pipes_ex :
  let sp := test_producer_build [1; 2; 3] (Ok 9) (Some [2]) (Some [true; true; false]) : test_producer_state nat nat nat in
  let sc := test_consumer_build 3 8 (Some [2]) (Some [true; false]) : test_consumer_state nat nat nat in
  hardy_producer true a_test_producer sp /\ hardy_consumer (a_test_consumer 0) sc /\ honest_count (blocking_bulk_consumer (@a_test_consumer nat nat nat 0)) /\
  omap (fun x => (test_producer_remaining (fst (fst x)), test_consumer_consumed (snd (fst x)), match snd x with AsyncModel.Ready r => Some r | _ => None end))
    (polls 6 (a_bulk_pipe 20 a_test_producer (a_test_consumer 0)) (sp, sc)) = Ret (Ret [1; 2; 3], Ret [1; 2], None) /\
  omap (fun x => (test_producer_remaining (fst (fst x)), test_consumer_consumed (snd (fst x)), match snd x with AsyncModel.Ready r => Some r | _ => None end))
    (polls 16 (a_bulk_pipe 20 a_test_producer (a_test_consumer 0)) (sp, sc)) = Ret (Ret [], Ret [1; 2; 3], Some (Ok tt)) /\
  pendings (a_bulk_pipe 20 a_test_producer (a_test_consumer 0)) (sp, sc) = 15.
Proof.
  split; [exact C94_lawful_ex|]. split; [exact C94_lawful_consumer_ex|]. split; [apply C94_defaults|]. repeat split; vm_compute; reflexivity.
Qed.

(** ** Whole slices *)
Theorem C94_slices :
  (forall S T F E (C : a_buffered_consumer S T F E) buf s, hardy_buffered_consumer C s ->
     endures (hardy_buffered_consumer C) (fun s' r => is_ok r = true -> hardy_buffered_consumer C s') (a_consume_full_slice C buf) s) /\
  (forall S T F E (C : a_bulk_consumer S T F E) fuel buf s, hardy_consumer C s ->
     endures (hardy_consumer C) (fun s' r => is_ok r = true -> hardy_consumer C s') (a_bulk_consume_full_slice fuel C buf) s) /\
  (forall S T F E sl (P : a_buffered_producer S T F E) buf s, hardy_buffered_producer sl P s ->
     endures (hardy_buffered_producer sl P) (fun s' x => length (fst x) = length buf /\ (is_ok (snd x) = true -> hardy_buffered_producer sl P s'))
       (a_overwrite_full_slice P buf) s) /\
  (forall S T F E sl (P : a_bulk_producer S T F E), keeps_length (blocking_bulk_producer P) -> forall fuel buf s, hardy_producer sl P s ->
     endures (hardy_producer sl P) (fun s' x => length (fst x) = length buf /\ (is_ok (snd x) = true -> hardy_producer sl P s'))
       (a_bulk_overwrite_full_slice fuel P buf) s).
Proof.
  split; [|split; [|split]]; intros S T F E.
  - intros C buf s H. apply op_endures. split; [exact H|]. exact (consume_full_slice_hardy buf 0 H).
  - intros C fuel buf s H. apply op_endures. split; [exact H|]. exact (@bulk_consume_full_slice_hardy S T F E C fuel 0 buf s 0 0 H).
  - intros sl P buf s H. apply op_endures. split; [exact H|]. exact (@overwrite_full_slice_hardy S T F E sl P (length buf) 0 buf s eq_refl H).
  - intros sl P HL fuel buf s H. apply op_endures. split; [exact H|]. exact (@bulk_overwrite_full_slice_hardy S T F E sl P HL fuel 0 buf s 0 H).
Qed.
Print Assumptions C94_slices.
Example C94_slices_ex :
  let f := a_bulk_overwrite_full_slice 9 a_test_producer [0; 0; 0] in
  keeps_length (blocking_bulk_producer (@a_test_producer nat nat nat)) /\ pendings f hardy_ex = 8 /\
  omap (fun x => (test_producer_remaining (fst x), match snd x with AsyncModel.Ready _ => true | _ => false end)) (polls 6 f hardy_ex) = Ret (Ret [3], false) /\
  endures (hardy_producer true a_test_producer) (fun s' x => length (fst x) = 3 /\ (is_ok (snd x) = true -> hardy_producer true a_test_producer s')) f hardy_ex.
Proof.
  intros f. assert (HL : keeps_length (blocking_bulk_producer (@a_test_producer nat nat nat))) by apply C94_defaults.
  split; [exact HL|]. split; [vm_compute; reflexivity|]. split; [vm_compute; reflexivity|].
  exact (proj2 (proj2 (proj2 C94_slices)) _ _ _ _ _ _ HL 9 [0; 0; 0] _ C94_lawful_ex).
Qed.

(** ** Codecs *)
Theorem C94_endian : forall w, hardy_encode (a_endian_encode w) /\ hardy_decode (a_endian_decode w).
Proof. intros w. split; [exact (endian_encode_hardy w)|exact (endian_decode_hardy w)]. Qed.
Print Assumptions C94_endian.

Theorem C94_encoders :
  (forall S F E V (encode : a_encode_fn V) (C : a_bulk_consumer S byte F E), hardy_encode encode -> forall s,
     hardy_consumer C s -> hardy_buffered_consumer (a_encoder encode C) s) /\
  (forall S F E V RT (relative_encode : RT -> a_encode_fn V) (C : a_bulk_consumer S byte F E), (forall r, hardy_encode (relative_encode r)) -> forall s r,
     hardy_consumer C s -> hardy_buffered_consumer (a_relative_encoder relative_encode C) (mk_relative s r)).
Proof. split; [exact @encoder_hardy|exact @relative_encoder_hardy]. Qed.
Print Assumptions C94_encoders.

Theorem C94_decoders :
  (forall S F E V O (decode : a_decode_fn V O) (P : a_bulk_producer S byte F E) sl, hardy_decode decode -> keeps_length (blocking_bulk_producer P) -> forall s,
     hardy_producer sl P s -> hardy_buffered_producer sl (a_decoder decode P) s) /\
  (forall S F E V O RT (relative_decode : RT -> a_decode_fn V O) (P : a_bulk_producer S byte F E) sl, (forall r, hardy_decode (relative_decode r)) ->
     keeps_length (blocking_bulk_producer P) -> forall s r, hardy_producer sl P s ->
     hardy_buffered_producer sl (a_relative_decoder relative_decode P) (mk_relative s r)).
Proof. split; [exact @decoder_hardy|exact @relative_decoder_hardy]. Qed.
Print Assumptions C94_decoders.
(** A decoder of two-byte integers whose future is dropped after the first byte; the next integer is made of the second and the third byte. *)
Example C94_codecs_ex :
  let P := @a_test_producer byte nat nat in
  let s := test_producer_build [x01; x02; x03] (Ok 9) (Some [1]) (Some [true; false]) in
  hardy_buffered_producer true (a_decoder (a_endian_decode U16BE) P) s /\
  omap (fun x => test_producer_remaining (fst x)) (polls 4 (ap_produce (a_decoder (a_endian_decode U16BE) P)) s) = Ret (Ret [x02; x03]) /\
  hardy_buffered_consumer (a_encoder (a_endian_encode U16BE) (a_limit_consumer (a_test_consumer x00)))
    (limit_new (test_consumer_build 3 8 (Some [2]) (Some [true; false]) : test_consumer_state byte nat nat) 3).
Proof.
  split; [|split; [vm_compute; reflexivity|]].
  - apply (proj1 C94_decoders); [apply C94_endian|apply C94_defaults|]. apply C94_basics. repeat constructor.
  - apply (proj1 C94_encoders); [apply C94_endian|]. apply (proj2 C94_limit). apply C94_basics. repeat constructor.
Qed.

(** Property C91: scramblers perform the operations they were given, in turn, and only when they have to. *)
From Coq Require Import Bool List Arith Lia.
From Verif Require Import Prelude ListFacts Traits QueueModel BasicModel ScramblerModel Contracts ContractFacts AdaptorSpec CallsSpec ScheduleSpec ScheduleProofs.
Import ListNotations.

(** *** C91: the producer scrambler. *)
Theorem C91_producer_scrambler : forall S T F E dbg (P : bulk_producer S T F E) x0 s ops cap fuel h st, 0 < cap ->
  p_trace (pscr_producer dbg fuel P) (pscr_new_with_capacity x0 s ops cap) h st ->
  exists l v, p_trace P s l (ps_inner st) /\ pscr_calls (all_producer_ops ops) cap (mk_pview [] None 0) h l v.
Proof. exact pscr_new_calls. Qed.
Print Assumptions C91_producer_scrambler.

(** *** C91: the consumer scrambler, for callers that write into slots before they mark them as used. *)
Theorem C91_consumer_scrambler : forall S T F E dbg x0 (C : bulk_consumer S T F E) s ops cap fuel h st, 0 < cap ->
  c_trace (cscr_consumer dbg x0 fuel C) (cscr_new_with_capacity x0 s ops cap) h st -> writes_first (0, []) h ->
  exists l v, c_trace C s l (cs_inner st) /\ cscr_calls (all_consumer_ops ops) cap (0, []) (mk_cview [] 0) h l v.
Proof. exact cscr_new_calls. Qed.
Print Assumptions C91_consumer_scrambler.

(** *** C91: items that fit into the queue of a consumer scrambler stay there. *)
Theorem C91_consumer_waits : forall S T F E dbg x0 (C : bulk_consumer S T F E) s ops cap fuel xs st, 0 < cap -> length xs <= cap ->
  c_trace (cscr_consumer dbg x0 fuel C) (cscr_new_with_capacity x0 s ops cap) (c_items xs) st -> cs_inner st = s.
Proof. exact cscr_waits. Qed.
Print Assumptions C91_consumer_waits.

(** *** C91: an operation is added only to patterns that could not move any item. *)
Theorem C91_operations : forall pops cops,
  ((exists o, In o pops /\ o <> ScSlurp) -> all_producer_ops pops = pops) /\ ((forall o, In o pops -> o = ScSlurp) -> all_producer_ops pops = pops ++ [ScProduce]) /\
  ((exists o, In o cops /\ o <> ScFlush) -> all_consumer_ops cops = cops) /\ ((forall o, In o cops -> o = ScFlush) -> all_consumer_ops cops = cops ++ [ScConsume]).
Proof.
  intros pops cops. destruct (all_producer_ops_ok pops) as (_ & H1 & H2). destruct (all_consumer_ops_ok cops) as (_ & H3 & H4). auto.
Qed.
Print Assumptions C91_operations.

(** ** Examples *)

(** A producer of the numbers in its state, two at a time, and a consumer that takes up to two at a time. *)
Definition C91_src : bulk_producer (list nat) nat bool nat :=
  bulk_producer_of (fun l => match l with [] => Ret ([], Ok (inr true)) | x :: l => Ret (l, Ok (inl x)) end) (fun l => Ret (l, Ok tt))
    (fun l => match l with [] => Ret ([], Ok (inr true)) | _ => Ret (l, Ok (inl (firstn 2 l))) end) (fun n l => Ret (skipn n l, Ok tt)).
Definition C91_dst : bulk_consumer (list nat * list nat) nat bool nat :=
  bulk_consumer_of (fun x s => if x =? 9 then Ret (s, Err 7) else Ret ((fst s ++ [x], snd s), Ok tt)) (fun _ s => Ret (s, Ok tt)) (fun s => Ret (s, Ok tt))
    (fun s => Ret (s, Ok 2)) (fun ys s => (fst s, ys)) (fun n s => Ret ((fst s ++ firstn n (snd s), []), Ok tt)).

(** Capacity 3, operations [Slurp; ConsiderProduced 2; Produce]: the first call reads ahead three items and goes once around; the second one slurps
    and then marks one of two items as produced, since there is room for one only; the third one produces. *)
Definition C91_pops := [ScSlurp; ScConsiderProduced 2; ScProduce].
Definition C91_ph : list (pop nat * pans nat bool nat) :=
  [(PProduce, PAItem (Ok (inl 4))); (PProduce, PAItem (Ok (inl 5))); (PProduce, PAItem (Ok (inl 6)))].
Example C91_producer_example :
  (exists st, p_trace (pscr_producer true 9 C91_src) (pscr_new_with_capacity 0 [4; 5; 6; 7; 8; 9] C91_pops 3) C91_ph st /\ ps_inner st = [9]) /\
  exists v, pscr_calls (all_producer_ops C91_pops) 3 (mk_pview [] None 0) C91_ph
    ([(PSlurp, PAUnit (Ok tt)); (PExpose, PASlice (Ok (inl [4; 5]))); (PConsider 2, PAUnit (Ok tt)); (PProduce, PAItem (Ok (inl 6)))] ++
     [(PSlurp, PAUnit (Ok tt)); (PExpose, PASlice (Ok (inl [7; 8]))); (PConsider 1, PAUnit (Ok tt))] ++
     [(PProduce, PAItem (Ok (inl 8)))] ++ []) v /\ pv_items v = [7; 8].
Proof.
  split; [eexists; split; [repeat (eapply p_trace_step; [compute_call|]); constructor|reflexivity]|].
  eexists. split.
  - eapply pscr_calls_step.
    { exists (mk_pview [4; 5; 6] None 0). split; [|split; reflexivity]. apply filled_slurp; [cbn; lia|reflexivity|]. eapply (@filled_items nat bool nat _ 3 [] 1 2 [4; 5] 2); try reflexivity; cbn; try lia.
      apply filled_item; [cbn; lia|reflexivity|]. apply filled_full. reflexivity. }
    eapply pscr_calls_step.
    { exists (mk_pview [5; 6; 7] None 2). split; [|split; reflexivity]. cbn. apply filled_slurp; [cbn; lia|reflexivity|]. eapply (@filled_items nat bool nat _ 3 [5; 6] 1 2 [7; 8] 1); try reflexivity; cbn; try lia.
      apply filled_full. reflexivity. }
    eapply pscr_calls_step; [|constructor].
    exists (mk_pview [6; 7; 8] None 0). split; [|split; reflexivity]. cbn. apply filled_item; [cbn; lia|reflexivity|]. apply filled_full. reflexivity.
  - reflexivity.
Qed.

(** The consumer: two items fit, the third one makes room by [consume], [flush] and [consume]; closing goes on with [expose_slots]. *)
Definition C91_cops := [ScConsume; ScFlush; ScConsume; ScConsumeSlots 5].
Definition C91_ch : list (cop nat bool * cans nat) :=
  [(CConsume 1, CAUnit (Ok tt)); (CBulkConsume [2; 3], CANat (Ok 1)); (CConsume 3, CAUnit (Ok tt)); (CExpose, CASlots (Ok 1)); (CWrite [4], CANone);
   (CConsumeSlots 1, CAUnit (Ok tt)); (CClose true, CAUnit (Ok tt))].
Example C91_consumer_example :
  writes_first (0, []) C91_ch /\
  (exists st, c_trace (cscr_consumer false 0 9 C91_dst) (cscr_new_with_capacity 0 ([], []) C91_cops 2) C91_ch st /\ fst (cs_inner st) = [1; 2; 3; 4]) /\
  exists v, cscr_calls (all_consumer_ops C91_cops) 2 (0, []) (mk_cview [] 0) C91_ch
    ([] ++ [] ++ [(CConsume 1, CAUnit (Ok tt)); (CFlush, CAUnit (Ok tt)); (CConsume 2, CAUnit (Ok tt))] ++ [] ++ [] ++ [] ++
     [(CExpose, CASlots (Ok 2)); (CWrite [3; 4], CANone); (CConsumeSlots 2, CAUnit (Ok tt)); (CClose true, CAUnit (Ok tt))] ++ []) v.
Proof.
  split; [cbn; repeat split; lia|].
  split; [eexists; split; [repeat (eapply c_trace_step; [compute_call|]); constructor|reflexivity]|].
  eexists.
  eapply cscr_calls_step; [exists (Ok tt), (mk_cview [] 0); repeat split|].
  eapply cscr_calls_step; [exists (Ok tt), (mk_cview [1] 0); split; [repeat split|]; exists 1; repeat split; cbn; try lia; discriminate|].
  eapply cscr_calls_step; [exists (Ok tt), (mk_cview [] 3); split; [|repeat split]; cbn|].
  { apply drained_item; [reflexivity|]. apply drained_flush; [discriminate|reflexivity|]. apply drained_item; [reflexivity|]. apply drained_done. }
  eapply cscr_calls_step; [exists (Ok tt); split; [repeat split|]; exists 1; repeat split; cbn; lia|].
  eapply cscr_calls_step; [repeat split|].
  eapply cscr_calls_step; [repeat split|].
  eapply cscr_calls_step; [|constructor].
  exists [(CExpose, CASlots (Ok 2)); (CWrite [3; 4], CANone); (CConsumeSlots 2, CAUnit (Ok tt))], [(CClose true, CAUnit (Ok tt))], (Ok tt).
  split; [reflexivity|]. split; [|exists (Ok tt); split; reflexivity]. cbn.
  eapply (@drained_slots nat bool nat _ [3; 4] 3 5 2 2); try reflexivity; cbn; try lia; try discriminate. apply drained_done.
Qed.

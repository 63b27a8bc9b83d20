(** Property C100: adaptors whose closures have side effects and may panic. *)
From Coq Require Import Bool List Arith Lia.
From Verif Require Import Prelude ListFacts Traits Contracts ContractFacts BasicModel BasicSpec BasicProofs SliceModel AdaptorModel CloneModel CloneSpec
  ClosureModel ClosureSpec ClosureProofs.
Import ListNotations.

(** *** C100. A pipe from or into MapItem, whichever closure, lawful producer and lawful consumer: the closure is called once for each item, in
    order; if it panics, only that item is lost. *)

Theorem C100_map_item_pipes :
  forall (W T U A F PE CE SP SC : Type) (f : T -> W -> W * option U) (M : machine A U F CE)
    (P : bulk_producer SP T F PE) RP DP, lawful_producer_core P RP DP ->
  forall (C : bulk_consumer SC U F CE) RC DC, lawful_consumer_core C M RC DC ->
  pipes_mapped f M RP DP RC DC (pipe_u (map_item_produce_u f P) (calm_consume C) (calm_close C)) /\
  pipes_mapped f M RP DP RC DC (pipe_u (calm_produce P) (map_item_consume_u f C) (calm_close C)).
Proof.
  intros W T U A F PE CE SP SC f M P RP DP LP C RC DC LC.
  split; [exact (map_item_producer_pipes f LP LC)|exact (map_item_consumer_pipes f LP LC)].
Qed.
Print Assumptions C100_map_item_pipes.

(** Catching the panics and going on. *)
Theorem C100_map_item_pipes_again :
  forall (W T U A F PE CE SP SC : Type) (f : T -> W -> W * option U) (M : machine A U F CE)
    (P : bulk_producer SP T F PE) RP DP, lawful_producer_core P RP DP ->
  forall (C : bulk_consumer SC U F CE) RC DC, lawful_consumer_core C M RC DC ->
  pipes_skipping f M RP DP RC DC (pipe_again (map_item_produce_u f P) (calm_consume C) (calm_close C)) /\
  pipes_skipping f M RP DP RC DC (pipe_again (calm_produce P) (map_item_consume_u f C) (calm_close C)) /\
  forall xs w, panics f xs w <= length xs.
Proof.
  intros W T U A F PE CE SP SC f M P RP DP LP C RC DC LC. split; [|split].
  - apply pipe_again_skips_them. exact (map_item_producer_pipes f LP LC).
  - apply pipe_again_skips_them. exact (map_item_consumer_pipes f LP LC).
  - exact (panics_bound f).
Qed.
Print Assumptions C100_map_item_pipes_again.

(** If the closure does not panic, these are the functions of AdaptorModel.v. *)
Theorem C100_without_panics :
  forall (S W T U F E : Type) (f : W -> T -> W * U),
  let g := fun x w => let (w, y) := f w x in (w, Some y) in
  (forall (P : producer S T F E) s w,
     map_item_produce_u g P s w =
     (let* (s, r) := map_item_produce P f (mk_map_item s w) in Ret (mi_inner s, mi_closure s, Done r))) /\
  (forall (C : consumer S U F E) x s w,
     map_item_consume_u g C x s w =
     (let* (s, r) := map_item_consume C f x (mk_map_item s w) in Ret (mi_inner s, mi_closure s, Done r))).
Proof.
  intros S W T U F E f g. split.
  - intros P s w. unfold map_item_produce_u, map_item_produce. cbn [mi_inner mi_closure].
    destruct (p_produce P s) as [[s' [[x|fin]|e]]| |]; cbn [bind]; try reflexivity. unfold g.
    destruct (f w x) as [w' y]. reflexivity.
  - intros C x s w. unfold map_item_consume_u, map_item_consume, g. cbn [mi_inner mi_closure].
    destruct (f w x) as [w' y]. destruct (c_consume C y s) as [[s' r]| |]; reflexivity.
Qed.
Print Assumptions C100_without_panics.

(** MapFinal around a producer: items pass; when the inner producer ends and the closure panics, its final value is lost, and so is the closure. *)
Theorem C100_map_final_produce :
  forall (S W T F B E : Type) (g : F -> W -> W * option B) (P : bulk_producer S T F E) R D, lawful_producer_core P R D ->
  forall s xs l k w, R s xs l k ->
  exists s',
    match xs, l with
    | x :: xs, _ => map_final_produce_u P (with_fun_new s g) w = Ret (with_fun_new s' g, w, Done (Ok (inl x))) /\ R s' xs l (k - 1)
    | [], Err e => map_final_produce_u P (with_fun_new s g) w = Ret (with_fun_new s' g, w, Done (Err e)) /\ D s'
    | [], Ok fin =>
        map_final_produce_u P (with_fun_new s g) w =
          Ret (mk_with_fun s' None, fst (g fin w), match snd (g fin w) with Some b => Done (Ok (inr b)) | None => Unwound end) /\
        D s'
    end.
Proof.
  intros S W T F B E g P R D L s xs l k w HR. unfold map_final_produce_u, with_fun_new. cbn [wf_inner wf_fun]. destruct xs as [|x xs].
  - destruct (lp_produce_last L HR) as (s' & E1 & HD). rewrite E1. cbn [bind]. exists s'. destruct l as [fin|e]; cbn [report_last expect bind].
    + destruct (g fin w) as [w' [b|]]; cbn [fst snd]; auto.
    + auto.
  - destruct (lp_produce L HR) as (s' & E1 & HR'). rewrite E1. cbn [bind]. exists s'. auto.
Qed.
Print Assumptions C100_map_final_produce.

(** MapFinal around a consumer: if the closure panics, the inner consumer has not been closed and is as before, so it can be taken out and closed. *)
Theorem C100_map_final_close :
  forall (S A W T F B E : Type) (g : B -> W -> W * option F) (M : machine A T F E) (C : bulk_consumer S T F E) R D,
  lawful_consumer_core C M R D ->
  forall s a k v fin w, R s a k v ->
  match g fin w with
  | (w', Some y) => exists s',
      map_final_close_u C fin (with_fun_new s g) w = Ret (mk_with_fun s' None, w', Done (snd (m_finish M y a))) /\
      D s' (fst (m_finish M y a))
  | (w', None) => map_final_close_u C fin (with_fun_new s g) w = Ret (mk_with_fun s None, w', Unwound)
  end.
Proof.
  intros S A W T F B E g M C R D L s a k v fin w HR. unfold map_final_close_u, with_fun_new. cbn [wf_inner wf_fun expect bind].
  destruct (g fin w) as [w' [y|]]; [|reflexivity]. destruct (lc_close L y HR) as (s' & E1 & HD). rewrite E1. cbn [bind]. exists s'. auto.
Qed.
Print Assumptions C100_map_final_close.

(** But it cannot be closed through the adaptor any more, although no call of [close] has returned. *)
Theorem C100_close_again_refuted :
  exists (S A W T F B E : Type) (g : B -> W -> W * option F) (M : machine A T F E) (C : bulk_consumer S T F E) R D s a k v fin w s' w',
  lawful_consumer_core C M R D /\ R s a k v /\
  map_final_close_u C fin (with_fun_new s g) w = Ret (s', w', Unwound) /\ snd (g fin w') <> None /\
  map_final_close_u C fin s' w' = Panic.
Proof.
  (* the closure panics if its captured variable is 0, having incremented it *)
  exists (into_vec nat), (list nat), nat, nat, unit, unit, infallible, (fun _ w => (w + 1, if w =? 0 then None else Some tt)),
    (collect_machine nat unit infallible), (into_vec_consumer 0), (@iv_rel nat), (@iv_end nat), into_vec_new, [], 0, [], tt, 0,
    (mk_with_fun into_vec_new None), 1.
  split; [apply into_vec_core|]. split; [exact (iv_rel_from_vec [])|]. split; [reflexivity|]. split; [discriminate|reflexivity].
Qed.
Print Assumptions C100_close_again_refuted.

(** MapError: its closure is gone after any call (C23); if it panics, the error is lost. *)
Theorem C100_map_error :
  forall (S W E B A : Type) (g : E -> W -> W * option B) (call : S -> outcome (S * res A E)) s w,
  match call s with
  | Ret (s', r) =>
      map_error_call_u call (with_fun_new s g) w =
      match r with
      | Ok a => Ret (mk_with_fun s' None, w, Done (Ok a))
      | Err e => Ret (mk_with_fun s' None, fst (g e w), match snd (g e w) with Some b => Done (Err b) | None => Unwound end)
      end
  | Panic => map_error_call_u call (with_fun_new s g) w = Panic
  | NoFuel => map_error_call_u call (with_fun_new s g) w = NoFuel
  end.
Proof.
  intros S W E B A g call s w. unfold map_error_call_u, with_fun_new. cbn [wf_inner wf_fun].
  destruct (call s) as [[s' [a|e]]| |]; cbn [bind expect]; try reflexivity. destruct (g e w) as [w' [b|]]; reflexivity.
Qed.
Print Assumptions C100_map_error.

(** A panic loses an item, whether the closure is on the side of the producer or of the consumer. *)
Theorem C100_nothing_lost_refuted :
  exists (f : nat -> nat -> nat * option nat) xs w sp1 sc1 w1 sp2 sc2 w2,
  let again_p := pipe_again (map_item_produce_u f (@from_slice_producer nat)) (calm_consume (into_vec_consumer 0)) (calm_close (into_vec_consumer 0)) in
  let again_c := pipe_again (calm_produce (@from_slice_producer nat)) (map_item_consume_u f (into_vec_consumer 0)) (calm_close (into_vec_consumer 0)) in
  again_p 2 10 (mk_from_slice xs 0) into_vec_new w = Ret (sp1, sc1, w1, Done (Ok tt)) /\
  again_c 2 10 (mk_from_slice xs 0) into_vec_new w = Ret (sp2, sc2, w2, Done (Ok tt)) /\
  length (into_vec_into_vec sc1) < length xs /\ length (into_vec_into_vec sc2) < length xs.
Proof.
  (* the closure panics the second time it is called *)
  exists (fun x w => (w + 1, if w =? 1 then None else Some (10 * x))), [1; 2; 3], 0, (mk_from_slice [1; 2; 3] 3).
  eexists. exists 3, (mk_from_slice [1; 2; 3] 3). eexists. exists 3. cbv zeta.
  split; [reflexivity|]. split; [reflexivity|]. cbn. lia.
Qed.
Print Assumptions C100_nothing_lost_refuted.

(** A closure with a counter; it panics on 13. *)
Definition ex_closure (x w : nat) : nat * option nat := (w + 1, if x =? 13 then None else Some (x + 100 * w)).

Example C100_example :
  (let* (sp, sc, w, r) := pipe_u (map_item_produce_u ex_closure (@from_slice_producer nat)) (calm_consume (into_vec_consumer 0))
     (calm_close (into_vec_consumer 0)) 7 (mk_from_slice [1; 2; 13; 4; 13; 6] 0) into_vec_new 0 in
   Ret (sp, into_vec_into_vec sc, w, r)) = Ret (mk_from_slice [1; 2; 13; 4; 13; 6] 3, [1; 102], 3, Unwound) /\
  (let* (sp, sc, w, r) := pipe_again (calm_produce (@from_slice_producer nat)) (map_item_consume_u ex_closure (into_vec_consumer 0))
     (calm_close (into_vec_consumer 0)) 3 7 (mk_from_slice [1; 2; 13; 4; 13; 6] 0) into_vec_new 0 in
   Ret (sp, into_vec_into_vec sc, w, r)) =
  Ret (mk_from_slice [1; 2; 13; 4; 13; 6] 6, [1; 102; 304; 506], 6, Done (Ok tt)) /\
  panics ex_closure [1; 2; 13; 4; 13; 6] 0 = 2.
Proof. split; [reflexivity|split; reflexivity]. Qed.

Example C100_consumer_example :
  (let* (sp, sc, w, r) := pipe_u (calm_produce (@from_slice_producer nat)) (map_item_consume_u ex_closure (@into_slice_consumer nat))
     (calm_close (@into_slice_consumer nat)) 7 (mk_from_slice [1; 2; 3; 4] 0) (into_slice_new [0; 0]) 0 in
   Ret (sp, w, r)) = Ret (mk_from_slice [1; 2; 3; 4] 3, 3, Done (Err (PipeConsumer tt))).
Proof. reflexivity. Qed.

Example C100_map_final_example :
  map_final_produce_u (@from_slice_producer nat) (with_fun_new (mk_from_slice [1] 0) (fun (_ : unit) w => (w + 1, None (A := nat)))) 0 =
    Ret (with_fun_new (mk_from_slice [1] 1) (fun _ w => (w + 1, None)), 0, Done (Ok (inl 1))) /\
  map_final_produce_u (@from_slice_producer nat) (with_fun_new (mk_from_slice [1] 1) (fun (_ : unit) w => (w + 1, None (A := nat)))) 0 =
    Ret (mk_with_fun (mk_from_slice [1] 1) None, 1, Unwound).
Proof. split; reflexivity. Qed.

(** A pipe into it: the panic happens while closing, all items are there, and the inner consumer is not closed. *)
Example C100_map_final_pipe_example :
  (let* (sp, sc, w, r) := pipe_u (calm_produce (@from_slice_producer nat))
     (fun x s w => let* (i, r) := c_consume (into_vec_consumer 0) x (wf_inner s) in Ret (mk_with_fun i (wf_fun s), w, Done r))
     (map_final_close_u (into_vec_consumer 0)) 7 (mk_from_slice [1; 2; 3] 0) (with_fun_new into_vec_new (fun (_ : unit) w => (w + 1, None))) 0 in
   Ret (sp, into_vec_into_vec (wf_inner sc), w, r)) = Ret (mk_from_slice [1; 2; 3] 3, [1; 2; 3], 1, Unwound).
Proof. reflexivity. Qed.

Example C100_map_error_example :
  map_error_call_u (c_consume (@into_slice_consumer nat) 5) (with_fun_new (into_slice_new []) (fun (_ : unit) w => (w + 1, None (A := nat)))) 0 =
  Ret (mk_with_fun (into_slice_new []) None, 1, Unwound).
Proof. reflexivity. Qed.

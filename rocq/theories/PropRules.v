(** C86: the code of the library obeys the rules of the objects that it is given, whatever these objects do. *)
From Coq Require Import Bool List Arith Lia.
From Coq.Init Require Import Byte.
From Verif Require Import Prelude QueueModel Traits BasicModel AdaptorModel ScramblerModel MergeModel CodecModel EndianModel Contracts AdaptorSpec CodecExamples
  RulesSpec RulesProofs RulesAdaptorProofs.
Import ListNotations.

(** ** C86. [guard_producer bad P] and [guard_consumer bad C] are [P] and [C] with a monitor that replaces calls that break the rules by [bad].
    Code that gives the same results with them as with [P] and [C], for each [bad], makes no such call. *)

(** The guards let through exactly the histories that keep the rules. *)
Theorem C86_guard_producer : forall S T F E (P : bulk_producer S T F E) h s s',
  (exists m, p_trace (guard_producer (fun X => @Panic X) P) (s, pmon_new) h (s', m)) <-> p_trace P s h s' /\ p_rules 0 h.
Proof. intros S T F E P h s s'. apply (guard_p_trace P h s s' 0). Qed.
Print Assumptions C86_guard_producer.

(** For consumers: at most these; the guards also insist that slots are written to before they are consumed. *)
Theorem C86_guard_consumer : forall S T F E (C : bulk_consumer S T F E) h s s' m,
  c_trace (guard_consumer (fun X => @Panic X) C) (s, cmon_new) h (s', m) -> c_trace C s h s' /\ c_rules 0 (no_writes h).
Proof. intros S T F E C h s s' m. apply guard_c_trace. lia. Qed.
Print Assumptions C86_guard_consumer.

Definition gp {S T F E} (P : bulk_producer S T F E) := guard_producer (fun X => @Panic X) P.
Definition gc {S T F E} (C : bulk_consumer S T F E) := guard_consumer (fun X => @Panic X) C.
Definition src := @from_slice_producer nat.
Definition dst := into_vec_consumer 0.
Definition from (xs : list nat) := (from_slice_new xs, pmon_new).
Definition into := (@into_vec_new nat, cmon_new).

(** What the guards object to: a call after the end, more items than there are on display, slots without items. *)
Example C86_guard_case :
  omap snd (p_obeying (gp src) [PExpose; PConsider 1; PConsider 1; PProduce; PProduce] pmon_new (from [4; 5]))
    = Ret [PASlice (Ok (inl [4; 5])); PAUnit (Ok tt); PAUnit (Ok tt); PAItem (Ok (inr tt))] /\
  (let* (s, _) := p_produce (gp src) (from []) in omap snd (p_produce (gp src) s)) = Panic /\
  (let* (s, _) := p_produce src (from_slice_new []) in omap snd (p_produce src s)) = Ret (Ok (inr tt)) /\
  (let* (s, _) := p_expose (gp src) (from [4; 5]) in omap snd (p_consider (gp src) 3 s)) = Panic /\
  (let* (s, _) := p_expose src (from_slice_new [4; 5]) in omap snd (p_consider src 3 s)) = Ret (Ok tt) /\
  (let* (s, _) := c_expose (gc dst) into in omap snd (c_consume_slots (gc dst) 2 (c_write (gc dst) [7] s))) = Panic /\
  (let* (s, _) := c_expose (gc dst) into in omap snd (c_consume_slots (gc dst) 1 (c_write (gc dst) [7] s))) = Ret (Ok tt).
Proof. vm_compute. repeat split. Qed.

(** *** Pipes *)

(** No rule is broken, and the caller knows from the result which of the two objects may still be used. *)
Theorem C86_pipe : forall bad SP SC T F PE CE (P : bulk_producer SP T F PE) (C : bulk_consumer SC T F CE) fuel sp sc,
  let run := pipe fuel (guard_producer bad P) (guard_consumer bad C) (sp, pmon_new) (sc, cmon_new) in
  omap unmon2 run = pipe fuel P C sp sc /\ forall x, run = Ret x -> pipe_done (fun _ => true) x.
Proof. intros. now apply pipe_kept. Qed.
Print Assumptions C86_pipe.

Theorem C86_pipe_at_most : forall bad SP SC T F PE CE (P : bulk_producer SP T F PE) (C : bulk_consumer SC T F CE) count sp sc,
  let run := pipe_at_most (guard_producer bad P) (guard_consumer bad C) count (sp, pmon_new) (sc, cmon_new) in
  omap unmon2 run = pipe_at_most P C count sp sc /\ forall x, run = Ret x -> pipe_done (fun piped => piped <? count) x.
Proof. intros. now apply pipe_at_most_kept. Qed.
Print Assumptions C86_pipe_at_most.

(** The bulk versions rely on the consumer in one respect: it must not claim to have consumed more items than it was given. *)
Theorem C86_bulk_pipe : forall bad SP SC T F PE CE (P : bulk_producer SP T F PE) (C : bulk_consumer SC T F CE) fuel sp sc,
  (forall buf s s' n, c_bulk_consume C buf s = Ret (s', Ok n) -> n <= length buf) ->
  let run := bulk_pipe fuel (guard_producer bad P) (guard_consumer bad C) (sp, pmon_new) (sc, cmon_new) in
  omap unmon2 run = bulk_pipe fuel P C sp sc /\ forall x, run = Ret x -> pipe_done (fun _ => true) x.
Proof. intros bad SP SC T F PE CE P C fuel sp sc H. now apply bulk_pipe_kept. Qed.
Print Assumptions C86_bulk_pipe.

Theorem C86_bulk_pipe_at_most : forall bad SP SC T F PE CE (P : bulk_producer SP T F PE) (C : bulk_consumer SC T F CE) fuel count sp sc,
  (forall buf s s' n, c_bulk_consume C buf s = Ret (s', Ok n) -> n <= length buf) ->
  let run := bulk_pipe_at_most fuel (guard_producer bad P) (guard_consumer bad C) count (sp, pmon_new) (sc, cmon_new) in
  omap unmon2 run = bulk_pipe_at_most fuel P C count sp sc /\ forall x, run = Ret x -> pipe_done (fun piped => piped <? count) x.
Proof. intros bad SP SC T F PE CE P C fuel count sp sc H. now apply bulk_pipe_at_most_kept. Qed.
Print Assumptions C86_bulk_pipe_at_most.

(** The default [bulk_consume] makes no such claim, whatever the methods do that it calls. *)
Theorem C86_default_is_honest : forall S T E expose write consume_slots (buf : list T) (s s' : S) n,
  @default_bulk_consume S T E expose write consume_slots buf s = Ret (s', Ok n) -> n <= length buf.
Proof. exact @default_honest. Qed.
Print Assumptions C86_default_is_honest.

Example C86_pipe_case :
  pipe 9 (gp src) (gc dst) (from [4; 5; 6]) into
    = Ret ((mk_from_slice [4; 5; 6] 3, mk_pmon true 0), (mk_into_vec [4; 5; 6] 3, mk_cmon true 0 0), Ok tt) /\
  omap snd (pipe_at_most (gp src) (gc dst) 2 (from [4; 5; 6]) into) = Ret (Ok 2) /\
  omap (fun x => (snd (fst (fst x)), snd (snd (fst x)))) (bulk_pipe_at_most 9 (gp src) (gc dst) 2 (from [4; 5; 6]) into)
    = Ret (mk_pmon false 1, mk_cmon false 0 0) /\
  omap (fun x => (snd (fst (fst x)), snd (snd (fst x)))) (bulk_pipe_at_most 9 (gp src) (gc dst) 4 (from [4; 5; 6]) into)
    = Ret (mk_pmon true 0, mk_cmon true 0 0) /\
  forall buf s s' n, c_bulk_consume dst buf s = Ret (s', Ok n) -> n <= length buf.
Proof. do 4 (split; [vm_compute; reflexivity|]). intros buf s s' n. apply C86_default_is_honest. Qed.

(** A consumer that counts one item too many makes [bulk_pipe] and [bulk_pipe_at_most] mark an item as produced that the producer has not
    shown to them: here the third of two. What comes of it depends on the producer; [FromSlice] panics. *)
Definition boasting : bulk_consumer unit nat unit infallible :=
  mk_bulk_consumer (mk_buffered_consumer (mk_consumer (fun _ s => Ret (s, Ok tt)) (fun _ s => Ret (s, Ok tt))) (fun s => Ret (s, Ok tt)))
    (fun s => Ret (s, Ok 1)) (fun _ s => s) (fun _ s => Ret (s, Ok tt)) (fun buf s => Ret (s, Ok (length buf + 1))).
Theorem C86_dishonest_refuted :
  exists (P : bulk_producer (from_slice nat) nat unit infallible) (C : bulk_consumer unit nat unit infallible) sp,
  p_expose P sp = Ret (sp, Ok (inl [4; 5])) /\
  bulk_pipe 2 P C sp tt = Panic /\
  bulk_pipe 2 (guard_producer (fun X => @NoFuel X) P) (guard_consumer (fun X => @NoFuel X) C) (sp, pmon_new) (tt, cmon_new) = NoFuel /\
  bulk_pipe_at_most 2 P C 2 sp tt = Ret (mk_from_slice [4; 5] 3, tt, Ok 3) /\
  bulk_pipe_at_most 2 (guard_producer (fun X => @NoFuel X) P) (guard_consumer (fun X => @NoFuel X) C) 2 (sp, pmon_new) (tt, cmon_new) = NoFuel.
Proof. exists src, boasting, (from_slice_new [4; 5]). vm_compute. repeat split. Qed.
Print Assumptions C86_dishonest_refuted.

(** *** Slices and default methods: an object is over after them exactly if they fail (or, for [bulk_produce], see the end). *)
Theorem C86_slices : forall bad S T F E (P : bulk_producer S T F E) (C : bulk_consumer S T F E) (buf : list T) fuel s,
  (let run := consume_full_slice (guard_consumer bad C) buf (s, cmon_new) in
   omap unmon run = consume_full_slice C buf s /\ forall x, run = Ret x -> cm_over (snd (fst x)) = negb (is_ok (snd x))) /\
  (let run := bulk_consume_full_slice fuel (guard_consumer bad C) buf (s, cmon_new) in
   omap unmon run = bulk_consume_full_slice fuel C buf s /\ forall x, run = Ret x -> cm_over (snd (fst x)) = negb (is_ok (snd x))) /\
  (let run := produce_item (guard_producer bad P) (s, pmon_new) in
   omap unmon run = produce_item P s /\ forall x, run = Ret x -> pm_over (snd (fst x)) = negb (is_ok (snd x))) /\
  (let run := overwrite_full_slice (guard_producer bad P) buf (s, pmon_new) in
   omap unmon run = overwrite_full_slice P buf s /\ forall x, run = Ret x -> pm_over (snd (fst x)) = negb (is_ok (snd (snd x)))) /\
  (let run := bulk_overwrite_full_slice fuel (guard_producer bad P) buf (s, pmon_new) in
   omap unmon run = bulk_overwrite_full_slice fuel P buf s /\ forall x, run = Ret x -> pm_over (snd (fst x)) = negb (is_ok (snd (snd x)))).
Proof.
  intros bad S T F E P C buf fuel s. split; [now apply (consume_full_slice_kept bad C)|]. split; [now apply (bulk_consume_full_slice_kept bad C)|].
  split; [now apply (produce_item_kept bad P)|]. split; [now apply (overwrite_full_slice_kept bad P)|]. now apply (bulk_overwrite_full_slice_kept bad P).
Qed.
Print Assumptions C86_slices.

Theorem C86_defaults : forall bad S T F E (P : bulk_producer S T F E) (C : bulk_consumer S T F E) (buf : list T) s,
  (let G := guard_producer bad P in let run := default_bulk_produce (p_expose G) (p_consider G) buf (s, pmon_new) in
   omap unmon run = default_bulk_produce (p_expose P) (p_consider P) buf s /\
   forall x, run = Ret x -> pm_over (snd (fst x)) = match snd (snd x) with Ok (inl _) => false | _ => true end) /\
  (let G := guard_consumer bad C in let run := default_bulk_consume (c_expose G) (c_write G) (c_consume_slots G) buf (s, cmon_new) in
   omap unmon run = default_bulk_consume (c_expose C) (c_write C) (c_consume_slots C) buf s /\
   forall x, run = Ret x -> cm_over (snd (fst x)) = negb (is_ok (snd x))).
Proof. intros bad S T F E P C buf s. split; [now apply (default_bulk_produce_kept bad P)|now apply (default_bulk_consume_kept bad C)]. Qed.
Print Assumptions C86_defaults.

Example C86_slices_case :
  omap (fun x => (snd (fst x), snd x)) (bulk_overwrite_full_slice 5 (gp src) [0; 0] (from [4; 5; 6])) = Ret (mk_pmon false 0, ([4; 5], Ok tt)) /\
  omap (fun x => snd (fst x)) (bulk_overwrite_full_slice 5 (gp src) [0; 0; 0; 0] (from [4; 5; 6])) = Ret (mk_pmon true 0) /\
  omap (fun x => (snd (fst x), snd x)) (bulk_consume_full_slice 5 (gc dst) [4; 5; 6] into) = Ret (mk_cmon false 0 0, Ok tt) /\
  omap (fun x => (snd (fst x), snd x)) (default_bulk_consume (c_expose (gc dst)) (c_write (gc dst)) (c_consume_slots (gc dst)) [4; 5; 6] into)
    = Ret (mk_cmon false 0 0, Ok 1).
Proof. vm_compute. repeat split. Qed.

(** *** Adaptors *)

(** [p_obeying] and [c_obeying] make calls for as long as these obey the rules of the outer object. *)
Theorem C86_limit : forall bad S T F E (P : bulk_producer S T F E) (C : bulk_consumer S T F E) n s,
  (forall ops, respects lim_forget pm_over (fun l => pm_over (snd (lim_inner l)))
     (p_obeying (limit_producer (guard_producer bad P)) ops pmon_new (limit_new (s, pmon_new) n)) (p_obeying (limit_producer P) ops pmon_new (limit_new s n))) /\
  (forall ops, respects lim_forget cm_over (fun l => cm_over (snd (lim_inner l)))
     (c_obeying (limit_consumer (guard_consumer bad C)) ops cmon_new (limit_new (s, cmon_new) n)) (c_obeying (limit_consumer C) ops cmon_new (limit_new s n))).
Proof.
  intros bad S T F E P C n s. split; intros ops.
  - eapply kept_respects; [apply (limit_producer_kept bad P ops (limit_new (s, pmon_new) n)); right; auto|]. intros l m h H Ho. now destruct (p_below_use H Ho).
  - eapply kept_respects; [apply (limit_consumer_kept bad C ops (limit_new (s, cmon_new) n)); right; auto|]. intros l m h H Ho. now destruct (c_below_use H Ho).
Qed.
Print Assumptions C86_limit.

Theorem C86_map_final : forall bad S T F B E (P : bulk_producer S T F E) (C : bulk_consumer S T B E) (g : F -> B) s,
  (forall ops, respects wf_forget pm_over (fun w => pm_over (snd (wf_inner w)))
     (p_obeying (map_final_producer (guard_producer bad P)) ops pmon_new (with_fun_new (s, pmon_new) g))
     (p_obeying (map_final_producer P) ops pmon_new (with_fun_new s g))) /\
  (forall ops, respects wf_forget cm_over (fun w => cm_over (snd (wf_inner w)))
     (c_obeying (map_final_consumer (guard_consumer bad C)) ops cmon_new (with_fun_new (s, cmon_new) g))
     (c_obeying (map_final_consumer C) ops cmon_new (with_fun_new s g))).
Proof.
  intros bad S T F B E P C g s. split; intros ops.
  - eapply kept_respects; [apply (map_final_producer_kept bad P ops (with_fun_new (s, pmon_new) g)); right; auto|]. intros l m h H Ho. now destruct (p_below_use H Ho).
  - eapply kept_respects; [apply (map_final_consumer_kept bad C ops (with_fun_new (s, cmon_new) g)); right; auto|]. intros l m h H Ho. now destruct (c_below_use H Ho).
Qed.
Print Assumptions C86_map_final.

(** (MapError panics at its second call, C23; it does so with a guarded object as well.) *)
Theorem C86_map_error : forall bad S T F E B (P : bulk_producer S T F E) (C : bulk_consumer S T F E) (g : E -> B) s,
  (forall ops, respects wf_forget pm_over (fun w => pm_over (snd (wf_inner w)))
     (p_obeying (map_error_producer (guard_producer bad P)) ops pmon_new (with_fun_new (s, pmon_new) g))
     (p_obeying (map_error_producer P) ops pmon_new (with_fun_new s g))) /\
  (forall ops, respects wf_forget cm_over (fun w => cm_over (snd (wf_inner w)))
     (c_obeying (map_error_consumer (guard_consumer bad C)) ops cmon_new (with_fun_new (s, cmon_new) g))
     (c_obeying (map_error_consumer C) ops cmon_new (with_fun_new s g))).
Proof.
  intros bad S T F E B P C g s. split; intros ops.
  - eapply kept_respects; [apply (map_error_producer_kept bad P ops (with_fun_new (s, pmon_new) g)); right; auto|]. intros l m h H Ho. now destruct (p_below_use H Ho).
  - eapply kept_respects; [apply (map_error_consumer_kept bad C ops (with_fun_new (s, cmon_new) g)); right; auto|]. intros l m h H Ho. now destruct (c_below_use H Ho).
Qed.
Print Assumptions C86_map_error.

Theorem C86_invariant : forall bad S T F E (P : bulk_producer S T F E) (C : bulk_consumer S T F E) s,
  (forall ops, respects inv_forget pm_over (fun i => pm_over (snd (inv_inner i)))
     (p_obeying (invariant_producer (guard_producer bad P)) ops pmon_new (invariant_new (s, pmon_new)))
     (p_obeying (invariant_producer P) ops pmon_new (invariant_new s))) /\
  (forall ops, respects inv_forget cm_over (fun i => cm_over (snd (inv_inner i)))
     (c_obeying (invariant_consumer (guard_consumer bad C)) ops cmon_new (invariant_new (s, cmon_new)))
     (c_obeying (invariant_consumer C) ops cmon_new (invariant_new s))).
Proof.
  intros bad S T F E P C s. split; intros ops.
  - eapply kept_respects; [apply (invariant_producer_kept bad P ops (invariant_new (s, pmon_new))); right; auto|]. intros l m h H Ho. now destruct (p_below_use H Ho).
  - eapply kept_respects; [apply (invariant_consumer_kept bad C ops (invariant_new (s, cmon_new))); right; auto|]. intros l m h H Ho. now destruct (c_below_use H Ho).
Qed.
Print Assumptions C86_invariant.

(** MapItem has no bulk methods: all that counts is whether an object is over. *)
Theorem C86_map_item : forall bad S T U W F E (P : bulk_producer S T F E) (C : bulk_consumer S U F E) (f : W -> T -> W * U) w s,
  (forall ops, respects mi_forget (fun over => over) (fun m => pm_over (snd (mi_inner m)))
     (bp_obeying (map_item_producer (guard_producer bad P) f) ops false (mk_map_item (s, pmon_new) w))
     (bp_obeying (map_item_producer P f) ops false (mk_map_item s w))) /\
  (forall ops, respects mi_forget (fun over => over) (fun m => cm_over (snd (mi_inner m)))
     (bc_obeying (map_item_consumer (guard_consumer bad C) f) ops false (mk_map_item (s, cmon_new) w))
     (bc_obeying (map_item_consumer C f) ops false (mk_map_item s w))).
Proof.
  intros bad S T U W F E P C f w s. split; intros ops.
  - eapply kept_respects; [apply (map_item_producer_kept bad P f ops (mk_map_item (s, pmon_new) w)); now intros _|]. intros l m h H. exact H.
  - eapply kept_respects; [apply (map_item_consumer_kept bad C f ops (mk_map_item (s, cmon_new) w)); now intros _|]. intros l m h H. exact H.
Qed.
Print Assumptions C86_map_item.

Example C86_adaptors_case :
  omap snd (p_obeying (limit_producer (gp src)) [PExpose; PConsider 1; PProduce; PSlurp; PBulkProduce [0; 0]; PProduce] pmon_new (limit_new (from [4; 5; 6; 7]) 3))
    = Ret [PASlice (Ok (inl [4; 5; 6])); PAUnit (Ok tt); PAItem (Ok (inl 5)); PAUnit (Ok tt); PABuf [6; 0] (Ok (inl 1)); PAItem (Ok (inr None))] /\
  omap snd (c_obeying (limit_consumer (gc dst)) [CConsume 4; CExpose; CWrite [5]; CConsumeSlots 1; CFlush; CClose tt; CFlush] cmon_new (limit_new into 3))
    = Ret [CAUnit (Ok tt); CASlots (Ok 2); CANone; CAUnit (Ok tt); CAUnit (Ok tt); CAUnit (Ok tt)] /\
  omap snd (p_obeying (map_final_producer (gp src)) [PProduce; PExpose; PConsider 1; PProduce; PProduce] pmon_new (with_fun_new (from [4; 5]) (fun _ => 9)))
    = Ret [PAItem (Ok (inl 4)); PASlice (Ok (inl [5])); PAUnit (Ok tt); PAItem (Ok (inr 9))] /\
  omap snd (p_obeying (map_error_producer (gp src)) [PExpose] pmon_new (with_fun_new (from [4; 5]) (fun _ => 9))) = Ret [PASlice (Ok (inl [4; 5]))] /\
  omap snd (p_obeying (invariant_producer (gp src)) [PExpose; PConsider 2; PProduce; PProduce] pmon_new (invariant_new (from [4; 5])))
    = Ret [PASlice (Ok (inl [4; 5])); PAUnit (Ok tt); PAItem (Ok (inr tt))] /\
  omap snd (bp_obeying (map_item_producer (gp src) (fun w x => (w + 1, x * 10 + w))) [BProduce; BSlurp; BProduce; BProduce; BProduce] false
      (mk_map_item (from [4; 5]) 0))
    = Ret [BPItem (Ok (inl 40)); BPUnit (Ok tt); BPItem (Ok (inl 51)); BPItem (Ok (inr tt))].
Proof. vm_compute. repeat split. Qed.

(** *** Scramblers: they make calls of their own choice, in an order of their own, and remember the end of the inner producer until they have
    passed on everything before it. [slurp] is the exception: see C29. *)
Theorem C86_producer_scrambler : forall bad S T F E dbg (P : bulk_producer S T F E) fuel s buffer pattern index ops, ~ In PSlurp ops ->
  respects ps_forget pm_over (fun b => match ps_last b with None => pm_over (snd (ps_inner b)) | Some _ => false end)
    (p_obeying (pscr_producer dbg fuel (guard_producer bad P)) ops pmon_new (mk_pscr (s, pmon_new) buffer None pattern index))
    (p_obeying (pscr_producer dbg fuel P) ops pmon_new (mk_pscr s buffer None pattern index)).
Proof.
  intros bad S T F E dbg P fuel s buffer pattern index ops HS.
  eapply kept_respects; [apply (@pscr_producer_kept bad _ _ _ _ dbg P fuel ops (mk_pscr (s, pmon_new) buffer None pattern index)); [now intros _ _|exact HS]|].
  intros b m h H Ho. specialize (H Ho). unfold ps_alive in H. cbn [fst snd] in H. destruct (ps_last b); [reflexivity|now apply H].
Qed.
Print Assumptions C86_producer_scrambler.

Theorem C86_consumer_scrambler : forall bad S T F E dbg default (C : bulk_consumer S T F E) fuel s buffer pattern index ops,
  respects cs_forget cm_over (fun b => cm_over (snd (cs_inner b)))
    (c_obeying (cscr_consumer dbg default fuel (guard_consumer bad C)) ops cmon_new (mk_cscr (s, cmon_new) buffer pattern index))
    (c_obeying (cscr_consumer dbg default fuel C) ops cmon_new (mk_cscr s buffer pattern index)).
Proof.
  intros bad S T F E dbg default C fuel s buffer pattern index ops.
  eapply kept_respects; [apply (@cscr_consumer_kept bad _ _ _ _ dbg default C fuel ops (mk_cscr (s, cmon_new) buffer pattern index)); now intros _|].
  intros b m h H Ho. now apply H.
Qed.
Print Assumptions C86_consumer_scrambler.

(** [slurp] of the producer scrambler after the scrambler has seen the end: the inner producer is called again. *)
Theorem C86_scrambler_slurp_refuted : exists (P : bulk_producer (from_slice nat) nat unit infallible) s ops,
  p_obeying (pscr_producer false 9 P) ops pmon_new (pscr_new_with_capacity 0 s [ScProduce; ScSlurp] 4) <> Panic /\
  p_obeying (pscr_producer false 9 (guard_producer (fun X => @Panic X) P)) ops pmon_new
    (pscr_new_with_capacity 0 (s, pmon_new) [ScProduce; ScSlurp] 4) = Panic.
Proof. exists src, (from_slice_new [4; 5]), [PProduce; PSlurp]. split; vm_compute; [discriminate|reflexivity]. Qed.
Print Assumptions C86_scrambler_slurp_refuted.

Example C86_scrambler_case :
  omap snd (p_obeying (pscr_producer false 9 (gp src)) [PProduce; PExpose; PConsider 1; PProduce; PProduce] pmon_new
      (pscr_new_with_capacity 0 (from [4; 5; 6]) [ScConsiderProduced 2; ScSlurp; ScProduce] 4))
    = Ret [PAItem (Ok (inl 4)); PASlice (Ok (inl [5; 6])); PAUnit (Ok tt); PAItem (Ok (inl 6)); PAItem (Ok (inr tt))] /\
  omap (fun x => cs_inner (fst (fst x)))
      (c_obeying (cscr_consumer false 0 9 (gc dst)) [CConsume 4; CBulkConsume [5; 6]; CFlush; CConsume 7; CClose tt; CConsume 8] cmon_new
        (cscr_new_with_capacity 0 into [ScConsumeSlots 2; ScFlush; ScConsume] 4))
    = Ret (mk_into_vec [4; 5; 6; 7; 0; 0; 0] 4, mk_cmon true 0 0).
Proof. vm_compute. repeat split. Qed.

(** *** Merge, under any schedule, polled by a caller who stops at its end *)
Theorem C86_merge : forall bad S1 S2 T F E (P1 : bulk_producer S1 T F E) (P2 : bulk_producer S2 T F E) scheds s1 s2,
  respects mg_forget (fun over => over)
    (fun m => match produce_future1 m with Some s => pm_over (snd s) | None => false end || match produce_future2 m with Some s => pm_over (snd s) | None => false end)
    (merge_obeying (guard_producer bad P1) (guard_producer bad P2) scheds false (merge_new (s1, pmon_new) (s2, pmon_new)))
    (merge_obeying P1 P2 scheds false (merge_new s1 s2)).
Proof.
  intros bad S1 S2 T F E P1 P2 scheds s1 s2.
  eapply kept_respects; [apply (@merge_obeying_kept bad _ _ _ _ _ P1 P2 scheds (merge_new (s1, pmon_new) (s2, pmon_new)) false); now intros _|].
  intros [[p1|] [p2|]] m h H Ho; destruct (H Ho) as [H1 H2]; cbn in *; now rewrite ?H1, ?H2.
Qed.
Print Assumptions C86_merge.

Example C86_merge_case :
  omap snd (merge_obeying (gp src) (gp src) (repeat (repeat (mk_choice true false true) 1 ++ repeat (mk_choice false true true) 3) 6) false
      (merge_new (from [4]) (from [5; 6])))
    = Ret [Some (Ok (inl 5)); Some (Ok (inl 6)); Some (Ok (inl 4)); Some (Ok (inr tt))].
Proof. vm_compute. reflexivity. Qed.

(** *** Codecs: encoders and decoders on top of a codec that obeys, as those of ufotofu_codec_endian do *)
Theorem C86_endian : forall w, obedient_encode (endian_encode w) /\ obedient_decode (endian_decode w) /\ obedient_decode (endian_decode_canonic w).
Proof. intros w. split; [apply endian_encode_obedient|]. split; apply endian_decode_obedient. Qed.
Print Assumptions C86_endian.

Theorem C86_encoders : forall bad S F E V RT (encode : encode_fn V) (relative_encode : RT -> encode_fn V) (C : bulk_consumer S byte F E) s r ops,
  (obedient_encode encode ->
   respects fst (fun over => over) (fun x => cm_over (snd x))
     (bc_obeying (encoder encode (guard_consumer bad C)) ops false (s, cmon_new)) (bc_obeying (encoder encode C) ops false s)) /\
  ((forall r, obedient_encode (relative_encode r)) ->
   respects rel_forget (fun over => over) (fun x => cm_over (snd (rel_inner x)))
     (bc_obeying (relative_encoder relative_encode (guard_consumer bad C)) ops false (mk_relative (s, cmon_new) r))
     (bc_obeying (relative_encoder relative_encode C) ops false (mk_relative s r))).
Proof.
  intros bad S F E V RT encode relative_encode C s r ops. split; intros Henc.
  - eapply kept_respects; [apply (@encoder_kept bad _ _ _ _ encode C Henc ops (s, cmon_new) false); now intros _|]. intros l m h H. exact H.
  - eapply kept_respects; [apply (@relative_encoder_kept bad _ _ _ _ _ relative_encode C Henc ops (mk_relative (s, cmon_new) r) false); now intros _|].
    intros l m h H. exact H.
Qed.
Print Assumptions C86_encoders.

Theorem C86_decoders : forall bad S F E V O RT (decode : decode_fn V O) (relative_decode : RT -> decode_fn V O) (P : bulk_producer S byte F E) s r ops,
  (obedient_decode decode ->
   respects fst (fun over => over) (fun x => pm_over (snd x))
     (bp_obeying (decoder decode (guard_producer bad P)) ops false (s, pmon_new)) (bp_obeying (decoder decode P) ops false s)) /\
  ((forall r, obedient_decode (relative_decode r)) ->
   respects rel_forget (fun over => over) (fun x => pm_over (snd (rel_inner x)))
     (bp_obeying (relative_decoder relative_decode (guard_producer bad P)) ops false (mk_relative (s, pmon_new) r))
     (bp_obeying (relative_decoder relative_decode P) ops false (mk_relative s r))).
Proof.
  intros bad S F E V O RT decode relative_decode P s r ops. split; intros Hdec.
  - eapply kept_respects; [apply (@decoder_kept bad _ _ _ _ _ decode P Hdec ops (s, pmon_new) false); now intros _|]. intros l m h H. exact H.
  - eapply kept_respects; [apply (@relative_decoder_kept bad _ _ _ _ _ _ relative_decode P Hdec ops (mk_relative (s, pmon_new) r) false); now intros _|].
    intros l m h H. exact H.
Qed.
Print Assumptions C86_decoders.

(** Not only the codecs of the library: an optional byte. *)
Lemma opt_obedient : obedient_encode opt_encode /\ obedient_decode opt_decode.
Proof.
  split.
  - intros bad S F E C v s m Hm. change (kept unmon (fun x => is_ok (snd x) = true -> cm_over (snd (fst x)) = false)
      (opt_encode (guard_consumer bad C) v (s, m)) (opt_encode C v s)).
    unfold opt_encode. eapply kept_bind; [apply bulk_consume_full_slice_kept, Hm|].
    intros [[s1 m1] [[]|e]] H; unfold c_over_iff in H; cbn [fst snd is_ok negb] in H; unfold unmon; cbn [fst snd]; now apply kept_ret.
  - intros bad S F E P s m Hm. change (kept unmon (fun x => is_ok (snd x) = true -> pm_over (snd (fst x)) = false)
      (opt_decode (guard_producer bad P) (s, m)) (opt_decode P s)).
    unfold opt_decode. eapply kept_bind; [apply guard_produce, Hm|].
    intros [[s1 m1] [[x|f]|e]]; unfold unmon; cbn [fst snd]; intros ->; [|now apply kept_ret..].
    destruct x; try now apply kept_ret. eapply kept_bind; [apply guard_produce; reflexivity|].
    intros [[s2 m2] [[x|f]|e]]; unfold unmon; cbn [fst snd]; intros ->; now apply kept_ret.
Qed.

Example C86_codecs_case :
  omap snd (bp_obeying (decoder opt_decode (gp (@from_slice_producer byte))) [BProduce; BSlurp; BProduce; BProduce; BProduce] false
      (from_slice_new [x01; x05; x00], pmon_new))
    = Ret [BPItem (Ok (inl (Some x05))); BPUnit (Ok tt); BPItem (Ok (inl None)); BPItem (Ok (inr tt))] /\
  omap (fun x => fst (fst (fst x))) (bc_obeying (encoder opt_encode (gc (into_vec_consumer x00))) [BConsume (Some x05); BFlush; BConsume None; BClose tt; BFlush] false
      (into_vec_new, cmon_new))
    = Ret (mk_into_vec [x01; x05; x00] 3).
Proof. vm_compute. repeat split. Qed.

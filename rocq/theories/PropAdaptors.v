(** Properties C19-C27: the adaptors. *)
From Coq Require Import Bool List Arith Lia.
From Verif Require Import Prelude ListFacts Traits Contracts ContractFacts BasicModel BasicSpec BasicProofs Reference
  AdaptorModel AdaptorSpec AdaptorProofs PropBasic.
Import ListNotations.

(** *** C19. The inner producer is arbitrary: it holds the sequence [xs] and [l]. Calls of
    [slurp] are fine except if the inner producer fails right after [n] items. *)

Theorem C19_limit_conforms :
  forall (S T F E : Type) (P : bulk_producer S T F E) R D s xs l k n (ops : list (pop T)),
  lawful_producer_core P R D -> R s xs l k ->
  (lawful_slurp P R D /\ (length xs = n -> exists f, l = Ok f)) \/ ~ In PSlurp ops ->
  p_conforms (limit_producer P) ops (limit_new s n) (PActive (firstn n xs) (limit_last n xs l) 0).
Proof.
  intros S T F E P R D s xs l k n ops L HR LS.
  apply (lawful_p_conforms ops (s := limit_new s n) (a := PActive (firstn n xs) (limit_last n xs l) 0)
    (limit_lawful xs l n L)).
  - destruct LS as [[LS Hn]|LS]; [left; now apply limit_slurp_lawful|now right].
  - eapply lim_rel_new; exact HR.
Qed.
Print Assumptions C19_limit_conforms.

(** The inner producer is left holding everything that was not emitted. *)
Theorem C19_limit_leaves_the_rest :
  forall (S T F E : Type) (P : bulk_producer S T F E) R D s xs l k n h s' a',
  lawful_producer_core P R D -> R s xs l k ->
  (lawful_slurp P R D /\ (length xs = n -> exists f, l = Ok f)) \/ ~ In PSlurp (map fst h) ->
  p_history (limit_producer P) (limit_new s n) (PActive (firstn n xs) (limit_last n xs l) 0) h s' a' ->
  match a' with
  | PActive ys _ _ =>
      p_emitted [] h ++ ys = firstn n xs /\ p_last h = None /\
      R (lim_inner s') (skipn (length (p_emitted [] h)) xs) l 0
  | PEnded =>
      p_emitted [] h = firstn n xs /\
      if length xs <? n
      then p_last h = Some (match l with Ok f => Ok (Some f) | Err e => Err e end) /\ D (lim_inner s')
      else p_last h = Some (Ok None) /\ R (lim_inner s') (skipn n xs) l 0
  end.
Proof. exact limit_history. Qed.
Print Assumptions C19_limit_leaves_the_rest.

Example C19_example :
  let h := [(PExpose, PASlice (Ok (inl [1]))); (PConsider 1, PAUnit (Ok tt)); (PExpose, PASlice (Ok (inl [2; 3])));
         (PProduce, PAItem (Ok (inl 2))); (PProduce, PAItem (Ok (inl 3))); (PProduce, PAItem (Ok (inr None)))] in
  exists s', p_history (limit_producer test_producer)
    (limit_new (test_producer_build [1; 2; 3; 4] (@Ok nat nat 7) (Some [1; 5]) None) 3)
    (PActive (firstn 3 [1; 2; 3; 4]) (limit_last 3 [1; 2; 3; 4] (@Ok nat nat 7)) 0) h s' PEnded /\
    test_producer_remaining (lim_inner s') = Ret [4].
Proof. eexists. split; [run_p|reflexivity]. Qed.

(** With an inner producer that fails right after [n] items, [slurp] lets its error through,
    although the sequence is documented to end with the final value [None]. *)
Theorem C19_slurp_refuted :
  exists (s : test_producer_state nat unit nat) n,
    tp_rel s [1] (Err 9) 0 /\
    ~ p_conforms (limit_producer test_producer) [PProduce; PSlurp] (limit_new s n)
        (PActive (firstn n [1]) (limit_last n [1] (Err 9)) 0).
Proof. exact limit_slurp_refuted. Qed.
Print Assumptions C19_slurp_refuted.

(** *** C20 *)

Theorem C20_limit_conforms :
  forall (S A T F E : Type) (C : bulk_consumer S T F E) (M : machine A T F E) R D s a k w n (ops : list (cop T F)),
  lawful_consumer_core C M R D -> R s a k w ->
  c_conforms (limit_consumer C) (limit_machine M) ops (limit_new s n) (CActive (n, a) 0 []).
Proof.
  intros S A T F E C M R D s a k w n ops L HR.
  apply (lawful_c_conforms ops (s := limit_new s n) (a := CActive (n, a) 0 []) (limit_consumer_lawful L)).
  exact (limc_rel_new _ _ _ _ n L HR).
Qed.
Print Assumptions C20_limit_conforms.

(** While active, the inner consumer has been fed exactly what was consumed, at most [n] items; at the end
    either the inner consumer has ended, too, or [n] items have been consumed and it is untouched. *)
Theorem C20_limit_counts :
  forall (S A T F E : Type) (C : bulk_consumer S T F E) (M : machine A T F E) R D (x0 : T) s a k w n h s' c',
  lawful_consumer_core C M R D -> R s a k w ->
  c_history (limit_consumer C) (limit_machine M) (limit_new s n) (CActive (n, a) 0 []) h s' c' ->
  match c' with
  | CActive (n', a') _ _ =>
      n' + length (c_consumed [] h) = n /\ R (lim_inner s') a' 0 [] /\
      (passive M -> m_feed M (c_consumed [] h) a = (a', length (c_consumed [] h), None))
  | CEnded (n', a') => D (lim_inner s') a' \/ (n' = 0 /\ R (lim_inner s') a' 0 [])
  end.
Proof. exact limit_consumer_history. Qed.
Print Assumptions C20_limit_counts.

(** Once [n] items have been consumed, further items are refused without
    involving the inner consumer. *)
Theorem C20_limit_refuses :
  forall (S A T F E : Type) (C : bulk_consumer S T F E) (M : machine A T F E) R D (x0 : T) s a k w n h s' n' a' k' w',
  lawful_consumer_core C M R D -> R s a k w ->
  c_history (limit_consumer C) (limit_machine M) (limit_new s n) (CActive (n, a) 0 []) h s' (CActive (n', a') k' w') ->
  length (c_consumed [] h) = n ->
  (forall x, c_consume (limit_consumer C) x s' = Ret (s', Err None)) /\
  c_expose (limit_consumer C) s' = Ret (s', Err None).
Proof. exact limit_consumer_refuses. Qed.
Print Assumptions C20_limit_refuses.

Example C20_example :
  let h := [(CConsume 5, CAUnit (Ok tt)); (CExpose, CASlots (Ok 2)); (CWrite [6; 7], CANone);
         (CConsumeSlots 2, CAUnit (Ok tt)); (CFlush, CAUnit (Ok tt)); (CConsume 8, CAUnit (Err None))] in
  exists s' c', c_history (limit_consumer (into_vec_consumer 0)) (limit_machine (collect_machine nat unit infallible))
      (limit_new (into_vec_from_vec [2; 3; 4]) 3) (CActive (3, [2; 3; 4]) 0 []) h s' c' /\
    c_consumed [] h = [5; 6; 7] /\ into_vec_into_vec (lim_inner s') = [2; 3; 4; 5; 6; 7].
Proof. do 2 eexists. split; [run_c|repeat split]. Qed.

(** *** C21. For all inner objects, whatever they do, the adaptor answers the same, with each item
    mapped; the closure is called once per item, in order; and the inner object sees the same calls. *)

Theorem C21_map_item_producer :
  forall (S T U W F E : Type) (P : buffered_producer S T F E) (f : W -> T -> W * U) ops s w,
  bp_run (map_item_producer P f) ops (mk_map_item s w) =
    (map_answers f w (fst (bp_run P ops s)),
     omap (fun s' => mk_map_item s' (closure_after f w (answered_items (fst (bp_run P ops s))))) (snd (bp_run P ops s))).
Proof. exact @map_item_produce_run. Qed.
Print Assumptions C21_map_item_producer.

Theorem C21_map_item_consumer :
  forall (S T U W F E : Type) (C : buffered_consumer S T F E) (f : W -> U -> W * T) ops s w,
  bc_run (map_item_consumer C f) ops (mk_map_item s w) =
    (fst (bc_run C (map_calls f w ops) s),
     omap (fun s' => mk_map_item s' (closure_after f w (called_items ops))) (snd (bc_run C (map_calls f w ops) s))).
Proof. exact @map_item_consume_run. Qed.
Print Assumptions C21_map_item_consumer.

(** Items are numbered while they are mapped. *)
Example C21_example :
  let number := fun (w x : nat) => (1 + w, (w, x)) in
  fst (bp_run (map_item_producer from_slice_producer number) [BProduce; BSlurp; BProduce; BProduce]
         (mk_map_item (from_slice_new [10; 20]) 0)) =
    [BPItem (Ok (inl (0, 10))); BPUnit (Ok tt); BPItem (Ok (inl (1, 20))); BPItem (Ok (inr tt))] /\
  omap (fun s => into_vec_into_vec (mi_inner s))
    (snd (bc_run (map_item_consumer (into_vec_consumer (0, 0)) number) [BConsume 10; BFlush; BConsume 20; BClose tt]
         (mk_map_item into_vec_new 0))) = Ret [(0, 10); (1, 20)].
Proof. split; reflexivity. Qed.

(** *** C22. All inner objects, whatever they do. [invariant_noop_producer P] is [P] with the
    default [bulk_produce]. *)

Theorem C22_map_final_producer :
  forall (S T F B E : Type) (P : bulk_producer S T F E) (g : F -> B) h s s',
  p_trace (invariant_noop_producer P) s h s' -> finals h <= 1 ->
  p_trace (map_final_producer P) (with_fun_new s g)
    (map (fun x => (fst x, pans_final_mapped g (snd x))) h)
    (mk_with_fun s' (if finals h =? 0 then Some g else None)).
Proof. intros S T F B E P g h s s'. exact (@map_final_trace _ _ _ _ _ P g h s s'). Qed.
Print Assumptions C22_map_final_producer.

Theorem C22_map_final_consumer :
  forall (S T F B E : Type) (C : bulk_consumer S T F E) (g : B -> F) h s s',
  c_trace (invariant_noop_consumer C) s (map (fun x => (cop_final_mapped g (fst x), snd x)) h) s' -> closes h <= 1 ->
  c_trace (map_final_consumer C) (with_fun_new s g) h
    (mk_with_fun s' (if closes h =? 0 then Some g else None)).
Proof. intros S T F B E C g h s s'. exact (@map_finalc_trace _ _ _ _ _ C g h s s'). Qed.
Print Assumptions C22_map_final_consumer.

(** Around contract-abiding objects the adaptor abides by the contract. *)
Theorem C22_map_final_producer_conforms :
  forall (S T F B E : Type) (P : bulk_producer S T F E) R D (g : F -> B) s xs l k (ops : list (pop T)),
  lawful_producer_core P R D -> lawful_slurp P R D \/ ~ In PSlurp ops -> R s xs l k ->
  p_conforms (map_final_producer P) ops (with_fun_new s g) (PActive xs (res_map g l) k).
Proof.
  intros S T F B E P R D g s xs l k ops L LS HR.
  apply (lawful_p_conforms ops (s := with_fun_new s g) (a := PActive xs (res_map g l) k) (map_final_lawful g L)).
  - destruct LS as [LS|LS]; [left; now apply map_final_slurp_lawful|now right].
  - split; [reflexivity|]. exists l. auto.
Qed.
Print Assumptions C22_map_final_producer_conforms.

Theorem C22_map_final_consumer_conforms :
  forall (S A T F B E : Type) (C : bulk_consumer S T F E) (M : machine A T F E) R D (g : B -> F) s a k w (ops : list (cop T B)),
  lawful_consumer_core C M R D -> R s a k w ->
  c_conforms (map_final_consumer C) (finish_mapped g M) ops (with_fun_new s g) (CActive a k w).
Proof.
  intros S A T F B E C M R D g s a k w ops L HR.
  apply (lawful_c_conforms ops (s := with_fun_new s g) (a := CActive a k w) (map_final_consumer_lawful g L)).
  split; auto.
Qed.
Print Assumptions C22_map_final_consumer_conforms.

Example C22_example :
  let s := test_producer_build [1; 2] (@Ok nat nat 7) None None in
  let h := [(PExpose, PASlice (Ok (inl [1; 2]))); (PConsider 2, PAUnit (Ok tt)); (PProduce, PAItem (Ok (inr 7)))] in
  (exists s', p_trace (invariant_noop_producer test_producer) s h s') /\ finals h = 1 /\
  exists s', p_trace (map_final_producer test_producer) (with_fun_new s (fun x => x =? 7))
    [(PExpose, PASlice (Ok (inl [1; 2]))); (PConsider 2, PAUnit (Ok tt)); (PProduce, PAItem (Ok (inr true)))] s'.
Proof. repeat split; eexists; repeat (eapply p_trace_step; [reflexivity|]); constructor. Qed.

Example C22_example_consumer :
  let h := [(CConsume 3, CAUnit (Ok tt)); (CClose true, CAUnit (Ok tt))] in
  exists s', c_trace (map_final_consumer (test_consumer 0)) (with_fun_new (test_consumer_build 9 5 None None) (fun b : bool => if b then 1 else 2)) h s' /\
    test_consumer_final_consumed (wf_inner s') = Some 1.
Proof. eexists. split; [repeat (eapply c_trace_step; [reflexivity|]); constructor|reflexivity]. Qed.

(** *** C23. The first call maps the error; after any call no further call returns. *)

Theorem C23_map_error_transparent_refuted :
  (exists (s : from_slice nat) s1 r1 s2 r2,
     p_trace (invariant_noop_producer from_slice_producer) s [(PProduce, r1); (PProduce, r2)] s2 /\
     p_ends r1 = false /\ p_ends r2 = false /\
     p_do (map_error_producer from_slice_producer) PProduce (with_fun_new s (fun e : infallible => e)) = Ret (s1, r1) /\
     p_do (map_error_producer from_slice_producer) PProduce s1 = Panic) /\
  (exists (s : into_vec nat) s1 s2,
     c_trace (invariant_noop_consumer (into_vec_consumer 0)) s [(CConsume 1, CAUnit (Ok tt)); (CConsume 2, CAUnit (Ok tt))] s2 /\
     c_do (map_error_consumer (into_vec_consumer 0)) (CConsume 1) (with_fun_new s (fun e : infallible => e)) = Ret (s1, CAUnit (Ok tt)) /\
     c_do (map_error_consumer (into_vec_consumer 0)) (CConsume 2) s1 = Panic).
Proof. exact map_error_refuted. Qed.
Print Assumptions C23_map_error_transparent_refuted.

Theorem C23_map_error_first_call :
  forall (S T F E B : Type) (P : bulk_producer S T F E) (C : bulk_consumer S T F E) (g : E -> B) s,
  (forall s1 r, p_produce P s = Ret (s1, r) -> p_produce (map_error_producer P) (with_fun_new s g) = Ret (mk_with_fun s1 None, map_err g r)) /\
  (forall s1 r, p_slurp P s = Ret (s1, r) -> p_slurp (map_error_producer P) (with_fun_new s g) = Ret (mk_with_fun s1 None, map_err g r)) /\
  (forall s1 r, p_expose P s = Ret (s1, r) -> p_expose (map_error_producer P) (with_fun_new s g) = Ret (mk_with_fun s1 None, map_err g r)) /\
  (forall n s1 r, p_consider P n s = Ret (s1, r) -> p_consider (map_error_producer P) n (with_fun_new s g) = Ret (mk_with_fun s1 None, map_err g r)) /\
  (forall x s1 r, c_consume C x s = Ret (s1, r) -> c_consume (map_error_consumer C) x (with_fun_new s g) = Ret (mk_with_fun s1 None, map_err g r)) /\
  (forall f s1 r, c_close C f s = Ret (s1, r) -> c_close (map_error_consumer C) f (with_fun_new s g) = Ret (mk_with_fun s1 None, map_err g r)) /\
  (forall s1 r, c_flush C s = Ret (s1, r) -> c_flush (map_error_consumer C) (with_fun_new s g) = Ret (mk_with_fun s1 None, map_err g r)) /\
  (forall s1 r, c_expose C s = Ret (s1, r) -> c_expose (map_error_consumer C) (with_fun_new s g) = Ret (mk_with_fun s1 None, map_err g r)) /\
  (forall n s1 r, c_consume_slots C n s = Ret (s1, r) -> c_consume_slots (map_error_consumer C) n (with_fun_new s g) = Ret (mk_with_fun s1 None, map_err g r)).
Proof.
  intros S T F E B P C g s. repeat split; intros; cbn; now apply map_error_first.
Qed.
Print Assumptions C23_map_error_first_call.

(** No execution has two calls: whatever the inner object does, whatever is called, and whatever state the adaptor is in. *)
Theorem C23_map_error_no_second_call :
  forall (S T F E B : Type) (P : bulk_producer S T F E) (C : bulk_consumer S T F E),
  (forall s h s', p_trace (map_error_producer (B := B) P) s h s' -> length h <= 1) /\
  (forall s h s', c_trace (map_error_consumer (B := B) C) s h s' ->
     length (filter (fun x => match fst x with CWrite _ => false | _ => true end) h) <= 1) /\
  (forall (g : E -> B) s buf ys s1, p_expose P s = Ret (s1, Ok (inl ys)) ->
     forall s2 r, p_bulk_produce (map_error_producer P) buf (with_fun_new s g) <> Ret (s2, r)) /\
  (forall (g : E -> B) s buf k s1, c_expose C s = Ret (s1, Ok k) ->
     forall s2 r, c_bulk_consume (map_error_consumer C) buf (with_fun_new s g) <> Ret (s2, r)).
Proof. exact map_error_second_call. Qed.
Print Assumptions C23_map_error_no_second_call.

(** *** C24. Without and with the checker, in both directions. *)

Theorem C24_checker_transparent_producer :
  forall (S T F E : Type) (P : bulk_producer S T F E) h s s',
  p_trace (invariant_noop_producer P) s h s' -> p_rules 0 h ->
  exists b j, p_trace (invariant_producer P) (invariant_new s) h (mk_invariant s' b j).
Proof. intros S T F E P h s s'. intros H1 H2. exact (invariant_trace (le_n 0) H1 H2). Qed.
Print Assumptions C24_checker_transparent_producer.

Theorem C24_checker_transparent_consumer :
  forall (S T F E : Type) (C : bulk_consumer S T F E) h s s',
  c_trace (invariant_noop_consumer C) s h s' -> c_rules 0 h ->
  exists b j, c_trace (invariant_consumer C) (invariant_new s) h (mk_invariant s' b j).
Proof. intros S T F E C h s s'. intros H1 H2. exact (invariantc_trace (le_n 0) H1 H2). Qed.
Print Assumptions C24_checker_transparent_consumer.

(** The checker never alters an answer, whether or not the caller respects the rules. *)
Theorem C24_checker_faithful :
  (forall (S T F E : Type) (P : bulk_producer S T F E) h s s',
     p_trace (invariant_producer P) s h s' -> p_trace (invariant_noop_producer P) (inv_inner s) h (inv_inner s')) /\
  (forall (S T F E : Type) (C : bulk_consumer S T F E) h s s',
     c_trace (invariant_consumer C) s h s' -> c_trace (invariant_noop_consumer C) (inv_inner s) h (inv_inner s')).
Proof. split; intros; [now apply invariant_trace_conv|now apply invariantc_trace_conv]. Qed.
Print Assumptions C24_checker_faithful.

Theorem C24_checker_conforms_producer :
  forall (S T F E : Type) (P : bulk_producer S T F E) R D s xs l k (ops : list (pop T)),
  lawful_producer_core P R D -> lawful_slurp P R D \/ ~ In PSlurp ops -> R s xs l k ->
  p_conforms (invariant_producer P) ops (invariant_new s) (PActive xs l 0).
Proof.
  intros S T F E P R D s xs l k ops L LS HR.
  apply (lawful_p_conforms ops (s := invariant_new s) (a := PActive xs l 0) (invariant_lawful L)).
  - destruct LS as [LS|LS]; [left; now apply invariant_slurp_lawful|now right].
  - repeat split; auto. exact (lp_forget L HR).
Qed.
Print Assumptions C24_checker_conforms_producer.

Theorem C24_checker_conforms_consumer :
  forall (S A T F E : Type) (C : bulk_consumer S T F E) (M : machine A T F E) R D s a k w (ops : list (cop T F)),
  lawful_consumer_core C M R D -> R s a k w ->
  c_conforms (invariant_consumer C) M ops (invariant_new s) (CActive a 0 []).
Proof.
  intros S A T F E C M R D s a k w ops L HR.
  apply (lawful_c_conforms ops (s := invariant_new s) (a := CActive a 0 []) (invariant_consumer_lawful L)).
  repeat split; auto. exact (lc_forget L HR).
Qed.
Print Assumptions C24_checker_conforms_consumer.

Example C24_example :
  let h := [(PExpose, PASlice (Ok (inl [1; 2; 3]))); (PConsider 1, PAUnit (Ok tt)); (PConsider 1, PAUnit (Ok tt)); (PSlurp, PAUnit (Ok tt));
         (PBulkProduce [0; 0], PABuf [3; 0] (Ok (inl 1))); (PProduce, PAItem (Ok (inr tt)))] in
  p_rules 0 h /\ exists s', p_trace (invariant_noop_producer from_slice_producer) (from_slice_new [1; 2; 3]) h s'.
Proof. split; [cbn; repeat split; lia|]. eexists. repeat (eapply p_trace_step; [reflexivity|]). constructor. Qed.

Example C24_example_consumer :
  let h := [(CExpose, CASlots (Ok 4)); (CWrite [1; 2], CANone); (CConsumeSlots 1, CAUnit (Ok tt)); (CFlush, CAUnit (Ok tt));
         (CConsumeSlots 1, CAUnit (Ok tt)); (CClose tt, CAUnit (Ok tt))] in
  c_rules 0 h /\ exists s', c_trace (invariant_noop_consumer (into_vec_consumer 0)) (into_vec_from_vec [7; 8; 9]) h s'.
Proof. split; [cbn; repeat split; lia|]. eexists. repeat (eapply c_trace_step; [reflexivity|]). constructor. Qed.

(** *** C25 *)

(** [produce], [slurp] and [expose_items] ending the sequence, and [bulk_produce] emitting the final value. *)
Theorem C25_detects_use_after_end_producer :
  forall (S T F E : Type) (P : bulk_producer S T F E) o s s1 r,
  p_do (invariant_producer P) o s = Ret (s1, r) -> p_ends r = true ->
  match o, r with PConsider _, _ => False | PBulkProduce _, PABuf _ (Err _) => False | _, _ => True end ->
  forall o', p_do (invariant_producer P) o' s1 = Panic.
Proof. intros S T F E P o s s1 r H He Ho o'. apply invariant_inactive. exact (invariant_deactivates _ _ H He Ho). Qed.
Print Assumptions C25_detects_use_after_end_producer.

(** [close], and errors of [consume], [flush] and [expose_slots]. Writing into slots that are no
    longer on offer is prevented by the borrow checker and not a call. *)
Theorem C25_detects_use_after_end_consumer :
  forall (S T F E : Type) (C : bulk_consumer S T F E) o s s1 r,
  c_do (invariant_consumer C) o s = Ret (s1, r) -> c_ends o r = true ->
  match o with CConsumeSlots _ | CBulkConsume _ => False | _ => True end ->
  forall o', (forall ys, o' <> CWrite ys) -> c_do (invariant_consumer C) o' s1 = Panic.
Proof. intros S T F E C o s s1 r H He Ho o' Hw. apply invariantc_inactive; auto. exact (invariantc_deactivates _ _ H He Ho). Qed.
Print Assumptions C25_detects_use_after_end_consumer.

(** Marking more than was exposed, possibly in several steps and with other calls in between. *)
Theorem C25_detects_overmarking :
  (forall (S T F E : Type) (P : bulk_producer S T F E) s ys h s1 s2 m n,
     p_do (invariant_producer P) PExpose s = Ret (s1, PASlice (Ok (inl ys))) ->
     p_trace (invariant_producer P) s1 h s2 -> marked (map fst h) = Some m -> length ys < m + n ->
     p_do (invariant_producer P) (PConsider n) s2 = Panic) /\
  (forall (S T F E : Type) (C : bulk_consumer S T F E) s k h s1 s2 m n,
     c_do (invariant_consumer C) CExpose s = Ret (s1, CASlots (Ok k)) ->
     c_trace (invariant_consumer C) s1 h s2 -> c_marked (map fst h) = Some m -> k < m + n ->
     c_do (invariant_consumer C) (CConsumeSlots n) s2 = Panic) /\
  (forall (S T F E : Type) (P : bulk_producer S T F E) s h s2 m n,
     p_trace (invariant_producer P) (invariant_new s) h s2 -> marked (map fst h) = Some m -> 0 < n ->
     p_do (invariant_producer P) (PConsider n) s2 = Panic) /\
  (forall (S T F E : Type) (C : bulk_consumer S T F E) s h s2 m n,
     c_trace (invariant_consumer C) (invariant_new s) h s2 -> c_marked (map fst h) = Some m -> 0 < n ->
     c_do (invariant_consumer C) (CConsumeSlots n) s2 = Panic).
Proof. exact invariant_overmarking. Qed.
Print Assumptions C25_detects_overmarking.

Example C25_example :
  let s := invariant_new (from_slice_new [1; 2]) in
  exists s1 s2 s3, p_do (invariant_producer from_slice_producer) PExpose s = Ret (s1, PASlice (Ok (inl [1; 2]))) /\
    p_do (invariant_producer from_slice_producer) (PConsider 1) s1 = Ret (s2, PAUnit (Ok tt)) /\
    p_do (invariant_producer from_slice_producer) (PConsider 2) s2 = Panic /\
    p_trace (invariant_producer from_slice_producer) s2 [(PProduce, PAItem (Ok (inl 2))); (PProduce, PAItem (Ok (inr tt)))] s3 /\
    p_do (invariant_producer from_slice_producer) PSlurp s3 = Panic.
Proof. do 3 eexists. splits; [reflexivity|reflexivity|reflexivity|repeat (eapply p_trace_step; [reflexivity|]); constructor|reflexivity]. Qed.

(** *** C26. After errors of [consider_produced] or [consume_slots] further calls go through. *)

Theorem C26_detects_failed_marking_refuted :
  (exists (M : machine unit nat unit nat) R D s1 s2 r,
     let C := ref_consumer M 1 in
     lawful_consumer C M R D /\ R (tt, []) tt 0 [] /\
     c_trace (invariant_consumer C) (invariant_new (tt, []))
       [(CExpose, CASlots (Ok 1)); (CWrite [5], CANone); (CConsumeSlots 1, CAUnit (Err 5))] s1 /\
     c_do (invariant_consumer C) (CConsume 6) s1 = Ret (s2, r)) /\
  (exists (P : bulk_producer unit nat unit nat) s1 s2 r,
     p_trace (invariant_producer P) (invariant_new tt)
       [(PExpose, PASlice (Ok (inl [1]))); (PConsider 1, PAUnit (Err 5))] s1 /\
     p_do (invariant_producer P) PProduce s1 = Ret (s2, r)).
Proof. exact invariant_failed_marking. Qed.
Print Assumptions C26_detects_failed_marking_refuted.

(** In general: an error of these methods never deactivates the checker, so that the next call
    reaches the inner object. *)
Theorem C26_failed_marking_stays_active :
  (forall (S T F E : Type) (P : bulk_producer S T F E) n s s1 r i,
     p_do (invariant_producer P) (PConsider n) s = Ret (s1, r) -> p_produce P (inv_inner s1) = Ret i ->
     exists s2, p_do (invariant_producer P) PProduce s1 = Ret (s2, PAItem (snd i)) /\ inv_inner s2 = fst i) /\
  (forall (S T F E : Type) (C : bulk_consumer S T F E) n s s1 r x i,
     c_do (invariant_consumer C) (CConsumeSlots n) s = Ret (s1, r) -> c_consume C x (inv_inner s1) = Ret i ->
     exists s2, c_do (invariant_consumer C) (CConsume x) s1 = Ret (s2, CAUnit (snd i)) /\ inv_inner s2 = fst i).
Proof. exact invariant_marking_stays_active. Qed.
Print Assumptions C26_failed_marking_stays_active.

(** *** C27. One slot is exposed, filled by [consume] and then marked, too. The checker accepts; the
    vector has one element fewer than the collector believes. *)

Theorem C27_rejects_stale_exposures_refuted :
  exists (h : list (cop nat unit * cans infallible)) s',
    h = [(CExpose, CASlots (Ok 1)); (CConsume 7, CAUnit (Ok tt)); (CConsumeSlots 1, CAUnit (Ok tt))] /\
    ~ c_rules 0 h /\
    c_trace (invariant_consumer (into_vec_consumer 0)) (invariant_new into_vec_new) h s' /\
    into_vec_as_ref (inv_inner s') = Panic.
Proof. exact invariant_stale. Qed.
Print Assumptions C27_rejects_stale_exposures_refuted.

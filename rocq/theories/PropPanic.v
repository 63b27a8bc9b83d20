(** C112: adaptors and pipes around objects whose methods panic. Nothing is assumed about the objects. *)
From Coq Require Import Bool List Arith Lia.
From Verif Require Import Prelude Traits BasicModel AdaptorModel CloneModel ClosureModel PanicModel PanicSpec PanicProofs.
Import ListNotations.

(** Invariant, while the rules are kept, is not noticed; where they are broken first, it panics. Panics inside break no rule and do not
    change what is allowed, except that a consumer whose [close] panicked has been closed. *)
Theorem C112_invariant_producer : forall W S T F E (P : v_producer W S T F E) ops s w,
  (forall s' w' ans, p_run (invariant_producer_v P) ops (invariant_new s) w = Ret (s', w', ans) ->
     p_run P ops s w = Ret (inv_inner s', w', ans) /\ p_rules 0 ops ans) /\
  (forall i' w' ans, p_run P ops s w = Ret (i', w', ans) ->
     (p_rules 0 ops ans -> exists s', p_run (invariant_producer_v P) ops (invariant_new s) w = Ret (s', w', ans) /\ inv_inner s' = i') /\
     (~ p_rules 0 ops ans -> p_run (invariant_producer_v P) ops (invariant_new s) w = Panic)).
Proof. intros. split; [exact (inv_run_sound P ops s 0 w)|exact (inv_run_complete P ops s 0 w)]. Qed.
Print Assumptions C112_invariant_producer.

Theorem C112_invariant_consumer : forall W S T F E (C : v_consumer W S T F E) ops s w,
  (forall s' w' ans, c_run (invariant_consumer_v C) ops (invariant_new s) w = Ret (s', w', ans) ->
     c_run C ops s w = Ret (inv_inner s', w', ans) /\ c_rules 0 ops ans) /\
  (forall i' w' ans, c_run C ops s w = Ret (i', w', ans) ->
     (c_rules 0 ops ans -> exists s', c_run (invariant_consumer_v C) ops (invariant_new s) w = Ret (s', w', ans) /\ inv_inner s' = i') /\
     (~ c_rules 0 ops ans -> c_run (invariant_consumer_v C) ops (invariant_new s) w = Panic)).
Proof. intros. split; [exact (cinv_run_sound C ops s 0 w)|exact (cinv_run_complete C ops s 0 w)]. Qed.
Print Assumptions C112_invariant_consumer.

(** MapFinal is used up by the first final value, or by the first call of [close], whatever comes of that; by nothing else. *)
Theorem C112_map_final_producer : forall W S T F B E (P : v_producer W S T F E) (g : F -> B) ops s w i' w' ans,
  p_run P ops s w = Ret (i', w', ans) ->
  p_run (map_final_producer_v P) ops (with_fun_new s g) w =
  if count is_final ans <=? 1
  then Ret (mk_with_fun i' (if count is_final ans =? 0 then Some g else None), w', map (final_by g) ans) else Panic.
Proof. intros. exact (mf_run P g ops s true w H). Qed.
Print Assumptions C112_map_final_producer.

Theorem C112_map_final_consumer : forall W S T F B E (C : v_consumer W S T F E) (g : B -> F) ops s w i' w' ans,
  c_run C (map (close_by g) ops) s w = Ret (i', w', ans) ->
  c_run (map_final_consumer_v C) ops (with_fun_new s g) w =
  if count is_close ops <=? 1
  then Ret (mk_with_fun i' (if count is_close ops =? 0 then Some g else None), w', ans) else Panic.
Proof. intros. exact (cmf_run C g ops s true w H). Qed.
Print Assumptions C112_map_final_consumer.

(** MapError endures calls that panic, but only one that returns. *)
Theorem C112_map_error_producer : forall W S T F E B (P : v_producer W S T F E) (g : E -> B) ops s w i' w' ans,
  p_run P ops s w = Ret (i', w', ans) ->
  p_run (map_error_producer_v P) ops (with_fun_new s g) w =
  if count returned ans <=? 1
  then Ret (mk_with_fun i' (if count returned ans =? 0 then Some g else None), w', map (error_by g) ans) else Panic.
Proof. intros. exact (me_run P g ops s true w H). Qed.
Print Assumptions C112_map_error_producer.

Theorem C112_map_error_consumer : forall W S T F E B (C : v_consumer W S T F E) (g : E -> B) ops s w i' w' ans,
  c_run C ops s w = Ret (i', w', ans) ->
  c_run (map_error_consumer_v C) ops (with_fun_new s g) w =
  if count c_returned ans <=? 1
  then Ret (mk_with_fun i' (if count c_returned ans =? 0 then Some g else None), w', map (c_error_by g) ans) else Panic.
Proof. intros. exact (cme_run C g ops s true w H). Qed.
Print Assumptions C112_map_error_consumer.

(** MapItem changes the items and nothing else. *)
Theorem C112_map_item : forall W S T U F E,
  (forall (P : v_producer W S T F E) (f : T -> U) ops s w, Forall of_producer ops ->
     p_run (map_item_producer_v f P) ops s w = let* (s, w, ans) := p_run P ops s w in Ret (s, w, map (item_by f) ans)) /\
  (forall (C : v_consumer W S T F E) (f : U -> T) ops s w, Forall of_consumer ops ->
     c_run (map_item_consumer_v f C) ops s w = c_run C (map (give_by f) ops) s w).
Proof. intros. split; intros; [apply mi_run|apply cmi_run]; assumption. Qed.
Print Assumptions C112_map_item.

(** Limit: which calls reach the inner object, what comes back, and what is left. Each call that is passed on costs as much as it
    would if it succeeded. So never more than the limit comes out or goes in, whatever panics. *)
Theorem C112_limit_producer : forall W S T F E (P : v_producer W S T F E) ops s n w s' w' ans,
  (p_run (limit_producer_v P) ops (limit_new s n) w = Ret (s', w', ans) <->
   exists ops0 ans0, p_run P ops0 s w = Ret (lim_inner s', w', ans0) /\ limited n ops ans ops0 ans0 (lim_remaining s')) /\
  (p_run (limit_producer_v P) ops (limit_new s n) w = Ret (s', w', ans) ->
   taken ops ans + count no_item ans + lim_remaining s' = n).
Proof.
  intros. split; [split|].
  - apply lim_run_sound.
  - intros (ops0 & ans0 & H1 & H2). unfold limit_new. rewrite (lim_run_complete P H2 _ _ H1). destruct s'; reflexivity.
  - intros H. destruct (lim_run_sound P _ _ _ _ H) as (ops0 & ans0 & H1 & H2). exact (limited_accounts P H2 _ _ H1).
Qed.
Print Assumptions C112_limit_producer.

Theorem C112_limit_consumer : forall W S T F E (C : v_consumer W S T F E) ops s n w s' w' ans,
  (c_run (limit_consumer_v C) ops (limit_new s n) w = Ret (s', w', ans) <->
   exists ops0 ans0, c_run C ops0 s w = Ret (lim_inner s', w', ans0) /\ c_limited n ops ans ops0 ans0 (lim_remaining s')) /\
  (forall ops0 ans0, c_limited n ops ans ops0 ans0 (lim_remaining s') -> handed ops0 + lim_remaining s' = n).
Proof.
  intros. split; [split|].
  - apply clim_run_sound.
  - intros (ops0 & ans0 & H1 & H2). unfold limit_new. rewrite (clim_run_complete C H2 _ _ H1). destruct s'; reflexivity.
  - intros ops0 ans0 H. exact (c_limited_accounts H).
Qed.
Print Assumptions C112_limit_consumer.

(** A pipe makes exactly these calls. *)
Theorem C112_pipe : forall SP SC W T F PE CE
    (produce : SP -> W -> outcome (SP * W * caught (res (T + F) PE)))
    (consume : T -> SC -> W -> outcome (SC * W * caught (res unit CE)))
    (close : F -> SC -> W -> outcome (SC * W * caught (res unit CE))) sp sc w sp' sc' w' r,
  (exists es, happens produce consume close sp sc w es sp' sc' w' /\ piping es r) <->
  (exists bound, forall fuel, bound <= fuel -> pipe_u produce consume close fuel sp sc w = Ret (sp', sc', w', r)).
Proof.
  intros. split.
  - intros (es & H1 & H2). exact (pipe_u_complete H2 H1).
  - intros (bound & H). eapply pipe_u_sound. apply (H bound). lia.
Qed.
Print Assumptions C112_pipe.

(** However often it panics and is called again: the consumer is given exactly the items the producer emitted, each once, in order, and
    closed exactly with the final values that came. An item can be lost only inside a [consume] that panics or fails. *)
Theorem C112_pipe_again : forall SP SC W T F PE CE
    (produce : SP -> W -> outcome (SP * W * caught (res (T + F) PE)))
    (consume : T -> SC -> W -> outcome (SC * W * caught (res unit CE)))
    (close : F -> SC -> W -> outcome (SC * W * caught (res unit CE))) attempts fuel sp sc w sp' sc' w' r,
  pipe_again produce consume close attempts fuel sp sc w = Ret (sp', sc', w', r) ->
  exists es, happens produce consume close sp sc w es sp' sc' w' /\ piping_again attempts es r /\
    given es = emitted es /\ closings es = finals es /\
    length (given es) = length (accepted es) + count consumer_panicked es + count consumer_failed es /\
    count consumer_failed es <= 1 /\ count panicked_event es <= attempts.
Proof.
  intros. destruct (pipe_again_sound _ _ _ _ _ _ _ _ H) as (es & H1 & H2).
  exists es. split; [exact H1|]. split; [exact H2|]. exact (piping_again_lists H2).
Qed.
Print Assumptions C112_pipe_again.

(** A bulk pipe tells the producer exactly what the consumer said it took; but if telling it panics or fails, the producer may not know. *)
Theorem C112_bulk_pipe : forall SP SC W T F PE CE
    (expose : SP -> W -> outcome (SP * W * caught (res (list T + F) PE)))
    (consider : nat -> SP -> W -> outcome (SP * W * caught (res unit PE)))
    (bulk_consume : list T -> SC -> W -> outcome (SC * W * caught (res nat CE)))
    (close : F -> SC -> W -> outcome (SC * W * caught (res unit CE))) sp sc w sp' sc' w' r,
  ((exists es, bulk_happens expose consider bulk_consume close sp sc w es sp' sc' w' /\ bulk_piping es r) <->
   (exists bound, forall fuel, bound <= fuel -> bulk_pipe_v expose consider bulk_consume close fuel sp sc w = Ret (sp', sc', w', r))) /\
  (forall es : list (bevent T F PE CE), bulk_piping es r -> claimed es = told es /\
     (noted es = claimed es \/ exists before n, (es = before ++ [BConsidered n Unwound] \/ exists e, es = before ++ [BConsidered n (Done (Err e))]) /\
        noted es + n = claimed es)).
Proof.
  intros. split; [split|].
  - intros (es & H1 & H2). exact (bulk_pipe_v_complete H2 H1).
  - intros (bound & H). eapply bulk_pipe_v_sound. apply (H bound). lia.
  - intros es H. exact (bulk_piping_sums H).
Qed.
Print Assumptions C112_bulk_pipe.

(** Around objects that do not panic these are the adaptors of AdaptorModel.v. *)
Theorem C112_calm : forall W S T F B E (P : bulk_producer S T F E) (C : bulk_consumer S T F E),
  p_same (W := W) (limit_producer_v (calm_producer P)) (calm_producer (limit_producer P)) /\
  p_same (W := W) (map_final_producer_v (B := B) (calm_producer P)) (calm_producer (map_final_producer P)) /\
  p_same (W := W) (map_error_producer_v (B := B) (calm_producer P)) (calm_producer (map_error_producer P)) /\
  p_same (W := W) (invariant_producer_v (calm_producer P)) (calm_producer (invariant_producer P)) /\
  c_same (W := W) (limit_consumer_v (calm_consumer C)) (calm_consumer (limit_consumer C)) /\
  c_same (W := W) (map_final_consumer_v (B := B) (calm_consumer C)) (calm_consumer (map_final_consumer C)) /\
  c_same (W := W) (map_error_consumer_v (B := B) (calm_consumer C)) (calm_consumer (map_error_consumer C)) /\
  c_same (W := W) (invariant_consumer_v (calm_consumer C)) (calm_consumer (invariant_consumer C)).
Proof.
  intros. exact (conj (calm_limit_p P) (conj (calm_map_final_p P) (conj (calm_map_error_p P) (conj (calm_invariant_p P)
    (conj (calm_limit_c C) (conj (calm_map_final_c C) (conj (calm_map_error_c C) (calm_invariant_c C)))))))).
Qed.
Print Assumptions C112_calm.

(** ** Cases *)

(** A producer of the numbers from [s] on, whose every call but the third, sixth, ... panics before it has done anything; [w] counts calls.
    It exposes two items, and ends at 6. *)
Definition every_third {X} (k : nat -> outcome (nat * res X bool)) (s w : nat) : outcome (nat * nat * caught (res X bool)) :=
  if w mod 3 =? 2 then let* (s, r) := k s in Ret (s, w + 1, Done r) else Ret (s, w + 1, Unwound).
Definition shaky : v_producer nat nat nat bool bool :=
  mk_v_producer (every_third (fun s => Ret (if s <? 6 then (s + 1, Ok (inl s)) else (s, Ok (inr true)))))
    (every_third (fun s => Ret (s, Ok tt)))
    (every_third (fun s => Ret (s, if s <? 6 then Ok (inl [s; s + 1]) else Ok (inr true))))
    (fun n => every_third (fun s => Ret (s + n, Ok tt))).
(** A consumer whose [close] always panics the first time, and that fails when given 5. *)
Definition fragile : v_consumer nat (list nat) nat bool bool :=
  mk_v_consumer (fun x s w => Ret (s ++ [x], w, Done (if x =? 5 then Err true else Ok tt)))
    (fun f s w => Ret (s, w + 1, if w =? 0 then Unwound else Done (Ok tt)))
    (fun s w => Ret (s, w, Done (Ok tt))) (fun s w => Ret (s, w, Done (Ok 2))) (fun ys s => s ++ ys) (fun n s w => Ret (s, w, Done (Ok tt))).

Example C112_invariant_case :
  p_run shaky [PProduce; PExpose; PExpose; PConsider 2; PSlurp; PConsider 0; PProduce] 0 0 =
    Ret (0, 7, [PItem Unwound; PSlice Unwound; PSlice (Done (Ok (inl [0; 1]))); PUnit Unwound; PUnit Unwound; PUnit (Done (Ok tt)); PItem Unwound]) /\
  p_rules 0 [PProduce; PExpose; PExpose; PConsider 2; PSlurp; PConsider 0; PProduce]
    (T := nat) (F := bool) (E := bool)
    [PItem Unwound; PSlice Unwound; PSlice (Done (Ok (inl [0; 1]))); PUnit Unwound; PUnit Unwound; PUnit (Done (Ok tt)); PItem Unwound] /\
  (** The display was used up by the call that panicked. *)
  p_run (invariant_producer_v shaky) [PProduce; PExpose; PExpose; PConsider 2; PSlurp; PConsider 1] (invariant_new 0) 0 = Panic.
Proof. split; [reflexivity|]. split; [|reflexivity]. lazy.
  repeat (split; [first [exact I | lia | intros; discriminate]|]). exact I.
Qed.

Example C112_rules_broken : ~ c_rules (T := nat) (E := bool) 0 [CClose true; CFlush] [CUnit Unwound; CUnit (Done (Ok tt))] /\
  c_run fragile [CClose true; CFlush] [] 0 = Ret ([], 1, [CUnit Unwound; CUnit (Done (Ok tt))]) /\
  c_run (invariant_consumer_v fragile) [CClose true; CFlush] (invariant_new []) 0 = Panic /\
  c_rules (T := nat) (E := bool) 0 [CExpose; CWrite [7]; CConsumeSlots 1; CClose true; CWrite [8]]
    [CSlots (Done (Ok 2)); CWritten; CUnit (Done (Ok tt)); CUnit Unwound; CWritten].
Proof.
  split; [|split; [reflexivity|split; [reflexivity|]]].
  - cbn. intros (_ & H & _). specialize (H eq_refl). discriminate H.
  - lazy. repeat (split; [first [exact I | lia | reflexivity | intros; discriminate | intros; reflexivity]|]). exact I.
Qed.

Example C112_map_final_case :
  p_run (map_final_producer_v shaky) [PProduce; PProduce; PProduce; PExpose; PSlurp; PProduce] (with_fun_new 5 negb) 0 =
    Ret (mk_with_fun 6 None, 6, [PItem Unwound; PItem Unwound; PItem (Done (Ok (inl 5))); PSlice Unwound; PUnit Unwound; PItem (Done (Ok (inr false)))]) /\
  c_run (map_final_consumer_v fragile) [CConsume 1; CClose true; CFlush] (with_fun_new [] negb) 0 =
    Ret (mk_with_fun [1] None, 1, [CUnit (Done (Ok tt)); CUnit Unwound; CUnit (Done (Ok tt))]).
Proof. split; reflexivity. Qed.

Example C112_map_error_case :
  p_run (map_error_producer_v shaky) [PProduce; PProduce; PProduce; PSlurp] (with_fun_new 5 negb) 0 =
    Ret (mk_with_fun 6 None, 4, [PItem Unwound; PItem Unwound; PItem (Done (Ok (inl 5))); PUnit Unwound]) /\
  p_run (map_error_producer_v shaky) [PProduce; PProduce; PProduce; PProduce; PProduce; PProduce] (with_fun_new 5 negb) 0 = Panic /\
  c_run (map_error_consumer_v fragile) [CClose true; CWrite [4]; CConsume 5] (with_fun_new [] negb) 0 =
    Ret (mk_with_fun [4; 5] None, 1, [CUnit Unwound; CWritten; CUnit (Done (Err false))]).
Proof. repeat split; vm_compute; reflexivity. Qed.

Example C112_map_item_case :
  p_run (map_item_producer_v (Nat.add 10) shaky) [PProduce; PSlurp; PProduce] 4 0 = Ret (5, 3, [PItem Unwound; PUnit Unwound; PItem (Done (Ok (inl 14)))]) /\
  Forall of_producer [PProduce; PSlurp; PProduce] /\
  c_run (map_item_consumer_v (Nat.add 2) fragile) [CConsume 3; CClose true] [] 0 = Ret ([5], 1, [CUnit (Done (Err true)); CUnit Unwound]) /\
  Forall (@of_consumer nat bool) [CConsume 3; CClose true].
Proof. split; [reflexivity|]. split; [repeat (apply Forall_cons; [unfold of_producer; auto|]); apply Forall_nil|].
  split; [reflexivity|]. repeat constructor.
Qed.

(** Of a limit of 4, two are spent on panics; one item is displayed though the inner producer offers two. *)
Example C112_limit_case :
  p_run (limit_producer_v shaky) [PProduce; PProduce; PProduce; PExpose; PExpose; PExpose; PConsider 1; PProduce] (limit_new 0 4) 0 =
    Ret (mk_limit 1 0, 7, [PItem Unwound; PItem Unwound; PItem (Done (Ok (inl 0))); PSlice Unwound; PSlice Unwound; PSlice (Done (Ok (inl [1])));
                           PUnit Unwound; PItem (Done (Ok (inr None)))]) /\
  taken (F := option bool) (E := bool) [PProduce; PProduce; PProduce; PExpose; PExpose; PExpose; PConsider 1; PProduce]
    [PItem Unwound; PItem Unwound; PItem (Done (Ok (inl 0))); PSlice Unwound; PSlice Unwound; PSlice (Done (Ok (inl [1])));
     PUnit Unwound; PItem (Done (Ok (inr None)))] = 2 /\
  c_run (limit_consumer_v fragile) [CConsume 3; CExpose; CWrite [4]; CConsumeSlots 1; CConsume 6; CClose true] (limit_new [] 2) 0 =
    Ret (mk_limit [3; 4] 0, 1, [CUnit (Done (Ok tt)); CSlots (Done (Ok 1)); CWritten; CUnit (Done (Ok tt)); CUnit (Done (Err None)); CUnit Unwound]).
Proof. repeat split; vm_compute; reflexivity. Qed.

(** Ten panics, and all items arrive. The consumer refuses the last one. *)
Example C112_pipe_case :
  pipe_u (v_produce shaky) (v_consume fragile) (v_close fragile) 9 0 [] 2 = Ret (1, [0], 4, Unwound) /\
  pipe_again (v_produce shaky) (v_consume fragile) (v_close fragile) 20 9 0 [] 2 = Ret (6, [0; 1; 2; 3; 4; 5], 18, Done (Err (PipeConsumer true))) /\
  pipe_again (v_produce shaky) (v_consume fragile) (v_close fragile) 20 9 6 [] 2 = Ret (6, [], 4, Done (Ok tt)).
Proof. repeat split; vm_compute; reflexivity. Qed.

(** ** What is not so *)

(** One might expect that [close] can be called again after a panic inside it, as it can without the adaptor. With MapFinal and with
    Invariant that panics. *)
Theorem C112_close_again_refuted : exists (C : v_consumer nat (list nat) nat bool bool) s w s' w' r1 r2,
  c_run C [CClose true; CClose true] s w = Ret (s', w', [CUnit r1; CUnit r2]) /\ r1 = Unwound /\ r2 = Done (Ok tt) /\
  c_run (map_final_consumer_v C) [CClose true; CClose true] (with_fun_new s (fun b : bool => b)) w = Panic /\
  c_run (invariant_consumer_v C) [CClose true; CClose true] (invariant_new s) w = Panic.
Proof. exists fragile, [], 0, [], 2, Unwound, (Done (Ok tt)). repeat split; vm_compute; reflexivity. Qed.
Print Assumptions C112_close_again_refuted.

(** One might expect that calling [bulk_pipe] again after a panic delivers each item once, as [pipe] does, when no call that panics
    has done anything. It may deliver items twice. *)
Definition shaky_consider : v_producer nat nat nat bool bool :=
  mk_v_producer (fun s w => Ret (s, w, Unwound)) (fun s w => Ret (s, w, Done (Ok tt)))
    (fun s w => Ret (s, w, Done (if s <? 4 then Ok (inl [s; s + 1]) else Ok (inr true))))
    (fun n s w => if w =? 0 then Ret (s, w + 1, Unwound) else Ret (s + n, w + 1, Done (Ok tt))).

Theorem C112_bulk_pipe_again_refuted : exists (P : v_producer nat nat nat bool bool) sp w sp1 sc1 w1 sp2 sc2 w2 r,
  let take xs (sc : list nat) (w : nat) : outcome (list nat * nat * caught (res nat bool)) := Ret (sc ++ xs, w, Done (Ok (length xs))) in
  let close (f : bool) (sc : list nat) (w : nat) : outcome (list nat * nat * caught (res unit bool)) := Ret (sc, w, Done (Ok tt)) in
  (forall n s w s' w', v_consider P n s w = Ret (s', w', Unwound) -> s' = s) /\
  (forall s w s' w', v_expose P s w <> Ret (s', w', Unwound)) /\
  bulk_pipe_v (v_expose P) (v_consider P) take close 9 sp [] w = Ret (sp1, sc1, w1, Unwound) /\
  bulk_pipe_v (v_expose P) (v_consider P) take close 9 sp1 sc1 w1 = Ret (sp2, sc2, w2, r) /\
  r = Done (Ok tt) /\ sc2 = [0; 1; 0; 1; 2; 3] /\ w = 0 /\ sp = 0.
Proof.
  exists shaky_consider, 0, 0, 0, [0; 1], 1, 4, [0; 1; 0; 1; 2; 3], 3, (Done (Ok tt)).
  split; [|split; [|repeat split; reflexivity]].
  - intros n s w s' w' H. cbn in H. destruct (w =? 0); injection H as <- <-; [reflexivity|discriminate].
  - intros s w s' w' H. cbn in H. injection H as _ _ H. discriminate H.
Qed.
Print Assumptions C112_bulk_pipe_again_refuted.

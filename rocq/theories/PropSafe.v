(** C87: panic freedom composes. *)
From Coq Require Import Bool List Arith ZArith Lia.
From Coq.Init Require Import Byte.
From Verif Require Import Prelude Traits BasicModel AdaptorModel ScramblerModel MergeModel CodecModel EndianModel TowerModel Contracts AdaptorSpec BasicProofs
  RulesSpec SafeSpec SafeProofs.
Import ListNotations.

(** Whether a list of calls, cut off where it breaks a rule, panics. *)
Definition p_panics {S T F E} (P : bulk_producer S T F E) (ops : list (pop T)) (s : S) : bool :=
  match obeying (p_calls true) (@p_saw T F E) (p_do P) ops pmon_new s with Panic => true | _ => false end.
Definition c_panics {S T F E} (C : bulk_consumer S T F E) (ops : list (cop T F)) (s : S) : bool :=
  match obeying (@c_calls T F) (@c_saw T F E) (c_do C) ops cmon_new s with Panic => true | _ => false end.

(** ** Where it starts *)

(** The basic producers and consumers never panic when used according to the rules, *)
Theorem C87_basics :
  (forall T (l : list T), calm_producer true from_slice_producer (from_slice_new l)) /\
  (forall T F E (f : F), calm_producer true (@empty_producer T F E) (empty_new f)) /\
  (forall T F E (items : list T) (last : res F E) sizes pattern, match sizes with Some l => Forall (fun n => 1 <= n) l | None => True end ->
     calm_producer true test_producer (test_producer_build items last sizes pattern)) /\
  (forall T (d : T) v, calm_consumer (into_vec_consumer d) (into_vec_from_vec v)) /\
  (forall T F E (d : T) (e : E) n sizes pattern, match sizes with Some l => Forall (fun n => 1 <= n) l | None => True end ->
     calm_consumer (test_consumer (F := F) d) (test_consumer_build e n sizes pattern)).
Proof.
  split; [exact from_slice_calm|]. split; [exact empty_calm|]. split; [exact test_producer_calm|]. split; [exact into_vec_calm|].
  exact test_consumer_calm.
Qed.
Print Assumptions C87_basics.

(** and neither does anything lawful that uses the default bulk methods, provided that it tolerates an amount of zero. *)
Theorem C87_lawful_producer : forall S T F E (P : bulk_producer S T F E) R D sl,
  lawful_producer_core P R D -> (sl = true -> lawful_slurp P R D) ->
  P = bulk_producer_of (p_produce P) (p_slurp P) (p_expose P) (p_consider P) ->
  (forall s xs l, R s xs l 0 -> safely (fun x => snd x = Ok tt -> R (fst x) xs l 0) (p_consider P 0 s)) ->
  forall s xs l, R s xs l 0 -> calm_producer sl P s.
Proof. intros. eapply lawful_producer_calm; eassumption. Qed.
Print Assumptions C87_lawful_producer.
Theorem C87_lawful_consumer : forall S T F E A (C : bulk_consumer S T F E) (M : machine A T F E) R D,
  lawful_consumer_core C M R D ->
  C = bulk_consumer_of (c_consume C) (c_close C) (c_flush C) (c_expose C) (c_write C) (c_consume_slots C) ->
  (forall s a, R s a 0 [] -> safely (fun x => snd x = Ok tt -> R (fst x) a 0 []) (c_consume_slots C 0 s)) ->
  forall s a, R s a 0 [] -> calm_consumer C s.
Proof. intros S T F E A C M R D H1 H2 H3 s a H. exact (@lawful_consumer_calm S T F E A C M R D H1 H2 H3 s a 0 [] H). Qed.
Print Assumptions C87_lawful_consumer.

(** What goes wrong after the end, or when more is marked as produced than was on display: the rules matter. *)
Example C87_basics_ex :
  p_do (@empty_producer nat nat nat) PProduce None = Panic /\
  p_do (@from_slice_producer nat) PExpose (mk_from_slice [1; 2] 3) = Panic /\
  p_do (@test_producer nat nat nat) PProduce (mk_tp (mk_from_slice [1] 1) None None None) = Panic /\
  c_do (into_vec_consumer 0) CExpose (mk_into_vec [1; 2] 5) = Panic /\
  c_do (@test_consumer nat nat nat 0) (CConsumeSlots 2) (test_consumer_build 9 1 None None) = Panic.
Proof. repeat split. Qed.
Example C87_lawful_ex : calm_producer true (@from_slice_producer nat) (from_slice_new [1; 2]).
Proof.
  eapply C87_lawful_producer; [apply from_slice_core|intros _; apply from_slice_slurp_lawful|reflexivity| |apply fs_rel_new].
  intros s xs l' H. cbn. intros _. rewrite Nat.add_0_r. destruct s. exact H.
Qed.
Example C87_lawful_consumer_ex : calm_consumer (into_vec_consumer 0) (into_vec_from_vec [7]).
Proof.
  eapply C87_lawful_consumer; [apply into_vec_core|reflexivity| |apply iv_rel_from_vec].
  intros s a H. cbn. intros _. rewrite Nat.add_0_r. destruct s. exact H.
Qed.

(** ** Adaptors *)

Theorem C87_limit :
  (forall S T F E sl (P : bulk_producer S T F E) s n, calm_producer sl P s -> calm_producer sl (limit_producer P) (limit_new s n)) /\
  (forall S T F E (C : bulk_consumer S T F E) s n, calm_consumer C s -> calm_consumer (limit_consumer C) (limit_new s n)).
Proof.
  split; [intros S T F E sl P s n; exact (@limit_producer_calm S T F E sl P s n 0)|intros S T F E C s n; exact (@limit_consumer_calm S T F E C s n 0 0)].
Qed.
Print Assumptions C87_limit.

Theorem C87_map_final :
  (forall S T F E B sl (P : bulk_producer S T F E) s (g : F -> B), calm_producer sl P s -> calm_producer sl (map_final_producer P) (with_fun_new s g)) /\
  (forall S T F E B (C : bulk_consumer S T F E) s (g : B -> F), calm_consumer C s -> calm_consumer (map_final_consumer C) (with_fun_new s g)).
Proof.
  split; [intros S T F E B sl P s g; exact (@map_final_producer_calm S T F E B sl P s g 0)
         |intros S T F E B C s g; exact (@map_final_consumer_calm S T F E B C s g 0 0)].
Qed.
Print Assumptions C87_map_final.

(** The checker does not panic on callers that obey; the one of release builds changes nothing. *)
Theorem C87_invariant :
  (forall S T F E sl (P : bulk_producer S T F E) s, calm_producer sl P s ->
     calm_producer sl (invariant_producer P) (invariant_new s) /\ calm_producer sl (invariant_noop_producer P) s) /\
  (forall S T F E (C : bulk_consumer S T F E) s, calm_consumer C s ->
     calm_consumer (invariant_consumer C) (invariant_new s) /\ calm_consumer (invariant_noop_consumer C) s).
Proof.
  split; intros S T F E.
  - intros sl P s H. split; [exact (@invariant_producer_calm S T F E sl P s 0 H)|exact (@noop_producer_calm S T F E sl P s 0 H)].
  - intros C s H. split; [exact (@invariant_consumer_calm S T F E C s 0 0 H)|exact (@noop_consumer_calm S T F E C s 0 0 H)].
Qed.
Print Assumptions C87_invariant.

Theorem C87_map_item :
  (forall S T F E U W sl (P : buffered_producer S T F E) (f : W -> T -> W * U) s w,
     calm_buffered_producer sl P s -> calm_buffered_producer sl (map_item_producer P f) (mk_map_item s w)) /\
  (forall S T F E U W (C : buffered_consumer S T F E) (f : W -> U -> W * T) s w,
     calm_buffered_consumer C s -> calm_buffered_consumer (map_item_consumer C f) (mk_map_item s w)).
Proof. split; [exact @map_item_producer_calm|exact @map_item_consumer_calm]. Qed.
Print Assumptions C87_map_item.

Theorem C87_as_buffered :
  (forall S T F E sl (P : bulk_producer S T F E) s, calm_producer sl P s -> calm_buffered_producer sl P s) /\
  (forall S T F E (C : bulk_consumer S T F E) s, calm_consumer C s -> calm_buffered_consumer C s).
Proof. split; [intros S T F E sl P s; exact (@calm_p_buffered S T F E sl P s 0)|intros S T F E C s; exact (@calm_c_buffered S T F E C s 0 0)]. Qed.
Print Assumptions C87_as_buffered.

(** An inner producer that is calm, and panics as soon as the rules are broken: the checker. *)
Example C87_adaptors_ex :
  let P := invariant_producer (@from_slice_producer nat) in
  let s := invariant_new (from_slice_new [1; 2; 3]) in
  calm_producer true P s /\
  calm_producer true (limit_producer P) (limit_new s 2) /\
  p_panics (limit_producer P) [PExpose; PConsider 2; PExpose; PProduce] (limit_new s 2) = false /\
  calm_producer true (map_final_producer P) (with_fun_new s (fun _ => 8)) /\
  calm_producer true (invariant_producer P) (invariant_new s) /\
  calm_buffered_producer true (map_item_producer P (fun w x => (w, x + w))) (mk_map_item s 3) /\
  p_do (limit_producer P) (PConsider 1) (limit_new s 2) = Panic.
Proof.
  intros P s. assert (H : calm_producer true P s) by (refine (proj1 (proj1 C87_invariant _ _ _ _ true _ _ _)); apply from_slice_calm).
  split; [exact H|]. split; [exact (proj1 C87_limit _ _ _ _ _ _ _ 2 H)|]. split; [reflexivity|].
  split; [exact (proj1 C87_map_final _ _ _ _ _ _ _ _ _ H)|]. split; [exact (proj1 (proj1 C87_invariant _ _ _ _ _ _ _ H))|].
  split; [|reflexivity]. exact (proj1 C87_map_item _ _ _ _ _ _ _ _ _ _ _ (proj1 C87_as_buffered _ _ _ _ _ _ _ H)).
Qed.

(** A MapError survives one call only. *)
Theorem C87_map_error_refuted :
  (exists S T F E B (P : bulk_producer S T F E) s (g : E -> B), calm_producer true P s /\ ~ calm_producer false (map_error_producer P) (with_fun_new s g)) /\
  (exists S T F E B (C : bulk_consumer S T F E) s (g : E -> B), calm_consumer C s /\ ~ calm_consumer (map_error_consumer C) (with_fun_new s g)).
Proof.
  split.
  - exists _, _, _, _, nat, (@from_slice_producer nat), (from_slice_new [1; 2]), (fun e : infallible => match e with end). split; [apply from_slice_calm|].
    intros H. apply (H [PProduce; PProduce]). reflexivity.
  - exists _, _, _, _, nat, (into_vec_consumer 0), (into_vec_from_vec []), (fun e : infallible => match e with end). split; [apply into_vec_calm|].
    intros H. apply (H [CConsume 1; CConsume 2]). reflexivity.
Qed.
Print Assumptions C87_map_error_refuted.

(** The producer scrambler, in debug and release builds, unless [slurp] is called on it; *)
Theorem C87_producer_scrambler : forall S T F E dbg fuel sl (P : bulk_producer S T F E) x0 s pat cap,
  0 < cap -> sl = true \/ ~ In ScSlurp pat -> calm_producer sl P s ->
  calm_producer false (pscr_producer dbg fuel P) (pscr_new_with_capacity x0 s pat cap).
Proof. intros. eapply pscr_producer_calm; eassumption. Qed.
Print Assumptions C87_producer_scrambler.
(** that may call [slurp] on an inner producer that has reported its final value. *)
Theorem C87_scrambler_slurp_refuted : exists S T F E (P : bulk_producer S T F E) s x0 pat cap,
  0 < cap /\ calm_producer true P s /\ forall dbg, ~ calm_producer true (pscr_producer dbg 9 P) (pscr_new_with_capacity x0 s pat cap).
Proof.
  exists _, nat, nat, nat, test_producer, (test_producer_build [4] (Ok 5) None None), 0, [], 2. split; [lia|]. split.
  - apply C87_basics. exact Logic.I.
  - intros dbg H. apply (H [PSlurp]). destruct dbg; reflexivity.
Qed.
Print Assumptions C87_scrambler_slurp_refuted.

(** The consumer scrambler in release builds; *)
Theorem C87_consumer_scrambler : forall S T F E x0 fuel (C : bulk_consumer S T F E) s pat cap, 0 < cap -> calm_consumer C s ->
  calm_consumer (cscr_consumer false x0 fuel C) (cscr_new_with_capacity x0 s pat cap).
Proof. intros S T F E x0 fuel C s pat cap Hc H. exact (@cscr_consumer_calm S T F E x0 fuel C s pat cap 0 0 Hc H). Qed.
Print Assumptions C87_consumer_scrambler.
(** in debug builds, an assertion that is the wrong way round fails as soon as the queue is full. *)
Theorem C87_scrambler_debug_refuted : exists S T F E x0 (C : bulk_consumer S T F E) s pat cap,
  0 < cap /\ calm_consumer C s /\ ~ calm_consumer (cscr_consumer true x0 9 C) (cscr_new_with_capacity x0 s pat cap).
Proof.
  exists _, nat, unit, infallible, 0, (into_vec_consumer 0), (into_vec_from_vec []), [], 1. split; [lia|]. split; [apply into_vec_calm|].
  intros H. apply (H [CConsume 1; CConsume 2]). reflexivity.
Qed.
Print Assumptions C87_scrambler_debug_refuted.

(** Any tower of adaptors. *)
Theorem C87_towers :
  (forall T F E G S sl (t : ptower T F E G) (P : bulk_producer S T F E) s, pt_fits sl t -> calm_producer sl P s ->
     calm_producer (pt_slurps sl t) (pt_producer P t) (pt_new s t)) /\
  (forall T F E G B S (t : ctower F E G B) (C : bulk_consumer S T F E) s, calm_consumer C s -> calm_consumer (ct_consumer C t) (ct_new s t)).
Proof. split; [exact @ptower_calm|exact @ctower_calm]. Qed.
Print Assumptions C87_towers.

(** Calls that come close: an amount of two after two items of a limit of three, below a checker, below a scrambler. *)
Definition tower_ex : ptower nat unit infallible (option nat) :=
  PTScramble true 40 0 [ScConsiderProduced 2; ScSlurp; ScProduce] 2 (PTInvariant (PTLimit 3 (PTMapFinal (fun _ : unit => 7) PTBase))).
Example C87_towers_ex :
  pt_fits true tower_ex /\ pt_slurps true tower_ex = false /\
  omap (fun x => (pm_over (snd (fst x)), snd x))
    (obeying (p_calls false) (@p_saw nat (option nat) infallible) (p_do (pt_producer from_slice_producer tower_ex))
      [PExpose; PConsider 2; PExpose; PConsider 1; PProduce; PProduce] pmon_new (pt_new (from_slice_new [1; 2; 3; 4]) tower_ex)) =
    Ret (true, [PASlice (Ok (inl [1; 2])); PAUnit (Ok tt); PASlice (Ok (inl [3])); PAUnit (Ok tt); PAItem (Ok (inr None))]).
Proof. split; [cbn; auto|]. split; reflexivity. Qed.
(** The same calls without regard to the rules: one more after the final value, an amount that was not on display. *)
Example C87_towers_needed :
  p_do (limit_producer from_slice_producer) (PConsider 4) (limit_new (from_slice_new [1; 2; 3; 4]) 3) = Panic /\
  p_do (invariant_producer (@from_slice_producer nat)) (PConsider 1) (invariant_new (from_slice_new [1; 2; 3; 4])) = Panic /\
  p_panics (pscr_producer false 5 from_slice_producer) [PProduce] (pscr_new_with_capacity 0 (from_slice_new [1]) [ScProduce] 0) = true.
Proof. repeat split. Qed.
Example C87_consumer_tower_ex :
  let t : ctower unit infallible nat (option infallible) := CTInvariant (CTLimit 3 (CTMapFinal (fun _ : nat => tt) CTBase)) in
  calm_consumer (ct_consumer (into_vec_consumer 0) t) (ct_new (into_vec_from_vec []) t) /\
  c_panics (ct_consumer (into_vec_consumer 0) t) [CExpose; CWrite [1; 2]; CConsumeSlots 2; CConsume 3; CFlush; CConsume 4; CFlush; CConsume 5]
    (ct_new (into_vec_from_vec []) t) = false /\
  c_do (ct_consumer (into_vec_consumer 0) t) (CConsumeSlots 2) (ct_new (into_vec_from_vec []) t) = Panic /\
  let C := cscr_consumer false 0 40 (ct_consumer (into_vec_consumer 0) t) in
  let s := cscr_new_with_capacity 0 (ct_new (into_vec_from_vec []) t) [ScConsume; ScConsumeSlots 2] 2 in
  calm_consumer C s /\ c_panics C [CExpose; CWrite [1; 2]; CConsumeSlots 2; CConsume 3; CFlush; CConsume 4; CFlush; CConsume 5] s = false.
Proof.
  intros t. assert (H : calm_consumer (ct_consumer (into_vec_consumer 0) t) (ct_new (into_vec_from_vec []) t)) by (apply (proj2 C87_towers); apply into_vec_calm).
  split; [exact H|]. split; [reflexivity|]. split; [reflexivity|]. split; [|reflexivity].
  exact (C87_consumer_scrambler _ _ _ _ 0 40 _ _ [ScConsume; ScConsumeSlots 2] 2 (le_S _ _ (le_n 1)) H).
Qed.

(** ** Merge *)
Theorem C87_merge : forall S1 S2 T F E sl1 sl2 (P1 : buffered_producer S1 T F E) (P2 : buffered_producer S2 T F E) s1 s2,
  calm_buffered_producer sl1 P1 s1 -> calm_buffered_producer sl2 P2 s2 -> calm_merge P1 P2 (merge_new s1 s2).
Proof. exact @merge_calm. Qed.
Print Assumptions C87_merge.
Example C87_merge_ex :
  calm_merge (@from_slice_producer nat) (@from_slice_producer nat) (merge_new (from_slice_new [1]) (from_slice_new [2])) /\
  omap snd (merge_obeying (@from_slice_producer nat) (@from_slice_producer nat)
    [[mk_choice false true true]; [mk_choice false true true; mk_choice false true true]; [mk_choice true true true]; [mk_choice true true true]]
    false (merge_new (from_slice_new [1]) (from_slice_new [2]))) = Ret [Some (Ok (inl 1)); Some (Ok (inl 2)); Some (Ok (inr tt))] /\
  merge_produce (@from_slice_producer nat) (@from_slice_producer nat) [mk_choice false true true] (mk_merge None None) = Panic.
Proof. split; [eapply C87_merge; apply C87_as_buffered; apply C87_basics|]. split; reflexivity. Qed.

(** ** Pipes *)

(** Piping does not panic, and whatever is not over afterwards may be used again. *)
Theorem C87_pipes :
  (forall SP SC T F PE CE sl (P : buffered_producer SP T F PE) (C : buffered_consumer SC T F CE) fuel sp sc,
     calm_buffered_producer sl P sp -> calm_buffered_consumer C sc ->
     safely (pipe_leaves (fun _ => False) (calm_buffered_producer sl P) (calm_buffered_consumer C)) (pipe fuel P C sp sc)) /\
  (forall SP SC T F PE CE sl (P : buffered_producer SP T F PE) (C : buffered_consumer SC T F CE) count sp sc,
     calm_buffered_producer sl P sp -> calm_buffered_consumer C sc ->
     safely (pipe_leaves (fun n => n = count) (calm_buffered_producer sl P) (calm_buffered_consumer C)) (pipe_at_most P C count sp sc)) /\
  (forall SP SC T F PE CE sl (P : bulk_producer SP T F PE) (C : bulk_consumer SC T F CE), honest_count C -> forall fuel sp sc,
     calm_producer sl P sp -> calm_consumer C sc ->
     safely (pipe_leaves (fun _ => False) (calm_producer sl P) (calm_consumer C)) (bulk_pipe fuel P C sp sc)) /\
  (forall SP SC T F PE CE sl (P : bulk_producer SP T F PE) (C : bulk_consumer SC T F CE), honest_count C -> forall fuel count sp sc,
     calm_producer sl P sp -> calm_consumer C sc ->
     safely (pipe_leaves (fun n => n = count) (calm_producer sl P) (calm_consumer C)) (bulk_pipe_at_most fuel P C count sp sc)).
Proof.
  split; [exact (fun SP SC T F PE CE => @pipe_calm SP SC T F PE CE)|].
  split; [intros; apply (@pipe_at_most_calm SP SC T F PE CE sl P C count 0); assumption|].
  split; intros SP SC T F PE CE sl P C HC.
  - intros fuel sp sc H1 H2. exact (@bulk_pipe_calm SP SC T F PE CE sl P C HC fuel sp sc 0 0 0 H1 H2).
  - intros fuel count sp sc H1 H2. exact (@bulk_pipe_at_most_calm SP SC T F PE CE sl P C HC fuel count 0 sp sc 0 0 0 (Nat.le_0_l _) H1 H2).
Qed.
Print Assumptions C87_pipes.

(** The default methods keep the length of the buffer, and count honestly. *)
Theorem C87_defaults :
  (forall S T F E (produce : S -> outcome (S * res (T + F) E)) slurp expose consider, keeps_length (bulk_producer_of produce slurp expose consider)) /\
  (forall S T F E (consume : T -> S -> outcome (S * res unit E)) (close : F -> S -> outcome (S * res unit E)) flush expose write slots,
     honest_count (bulk_consumer_of consume close flush expose write slots)).
Proof. split; [exact @default_keeps_length|exact @default_honest_count]. Qed.
Print Assumptions C87_defaults.

Example C87_pipes_ex :
  let P := @invariant_producer _ _ _ _ (@from_slice_producer nat) in
  let C := limit_consumer (into_vec_consumer 0) in
  calm_producer true P (invariant_new (from_slice_new [1; 2; 3])) /\ calm_consumer C (limit_new (into_vec_from_vec []) 2) /\ honest_count C /\
  omap snd (bulk_pipe 9 P C (invariant_new (from_slice_new [1; 2; 3])) (limit_new (into_vec_from_vec []) 2)) = Ret (Err (PipeConsumer None)) /\
  omap snd (bulk_pipe_at_most 9 P C 2 (invariant_new (from_slice_new [1; 2; 3])) (limit_new (into_vec_from_vec []) 2)) = Ret (Ok 2).
Proof.
  split; [refine (proj1 (proj1 C87_invariant _ _ _ _ true _ _ _)); apply from_slice_calm|]. split; [apply (proj2 C87_limit); apply into_vec_calm|]. split; [apply C87_defaults|]. split; reflexivity.
Qed.

(** Honesty is needed: a consumer that never panics, but claims to have consumed one item more than it was given. *)
Definition boaster : bulk_consumer unit nat unit infallible :=
  mk_bulk_consumer (mk_buffered_consumer (mk_consumer (fun _ s => Ret (s, Ok tt)) (fun _ s => Ret (s, Ok tt))) (fun s => Ret (s, Ok tt)))
    (fun s => Ret (s, Ok 1)) (fun _ s => s) (fun _ s => Ret (s, Ok tt)) (fun buf s => Ret (s, Ok (length buf + 1))).
Theorem C87_honesty_needed : exists SP SC T F PE CE sl (P : bulk_producer SP T F PE) (C : bulk_consumer SC T F CE) sp sc,
  calm_producer sl P sp /\ calm_consumer C sc /\ bulk_pipe 9 P C sp sc = Panic.
Proof.
  exists _, _, nat, _, _, _, true, (invariant_producer from_slice_producer), boaster, (invariant_new (from_slice_new [1; 2])), tt.
  split; [refine (proj1 (proj1 C87_invariant _ _ _ _ true _ _ _)); apply from_slice_calm|]. split; [|reflexivity].
  apply calm_intro with (Inv := fun _ _ => True); [|exact Logic.I]. intros s m [] _ _; exact Logic.I.
Qed.
Print Assumptions C87_honesty_needed.

(** ** Whole slices *)
Theorem C87_slices :
  (forall S T F E (C : buffered_consumer S T F E) buf s, calm_buffered_consumer C s ->
     safely (fun x => is_ok (snd x) = true -> calm_buffered_consumer C (fst x)) (consume_full_slice C buf s)) /\
  (forall S T F E (C : bulk_consumer S T F E) fuel buf s, calm_consumer C s ->
     safely (fun x => is_ok (snd x) = true -> calm_consumer C (fst x)) (bulk_consume_full_slice fuel C buf s)) /\
  (forall S T F E sl (P : buffered_producer S T F E) buf s, calm_buffered_producer sl P s ->
     safely (fun x => length (fst (snd x)) = length buf /\ (is_ok (snd (snd x)) = true -> calm_buffered_producer sl P (fst x)))
       (overwrite_full_slice P buf s)) /\
  (forall S T F E sl (P : bulk_producer S T F E), keeps_length P -> forall fuel buf s, calm_producer sl P s ->
     safely (fun x => length (fst (snd x)) = length buf /\ (is_ok (snd (snd x)) = true -> calm_producer sl P (fst x)))
       (bulk_overwrite_full_slice fuel P buf s)).
Proof.
  split; [intros S T F E C buf s; exact (@consume_full_slice_calm S T F E C buf 0 s)|].
  split; [intros S T F E C fuel buf s; exact (@bulk_consume_full_slice_calm S T F E C fuel 0 buf s 0 0)|].
  split; [intros S T F E sl P buf s; exact (@overwrite_full_slice_calm S T F E sl P (length buf) 0 buf s eq_refl)|].
  intros S T F E sl P HL fuel buf s. exact (@bulk_overwrite_full_slice_calm S T F E sl P HL fuel 0 buf s 0).
Qed.
Print Assumptions C87_slices.
Example C87_slices_ex :
  calm_producer true (@from_slice_producer nat) (from_slice_new [1; 2]) /\ keeps_length (@from_slice_producer nat) /\
  omap snd (bulk_overwrite_full_slice 9 from_slice_producer [0; 0; 0] (from_slice_new [1; 2])) = Ret ([1; 2; 0], Err (mk_pale 2 (inl tt))) /\
  omap snd (overwrite_full_slice from_slice_producer [0; 0] (from_slice_new [1; 2])) = Ret ([1; 2], Ok tt).
Proof. split; [apply C87_basics|]. split; [apply C87_defaults|]. split; reflexivity. Qed.

(** ** Codecs *)
Theorem C87_endian : forall w, calm_encode (endian_encode w) /\ calm_decode (endian_decode w) /\ calm_decode (endian_decode_canonic w).
Proof. intros w. split; [exact (endian_encode_calm w)|]. split; exact (endian_decode_calm w). Qed.
Print Assumptions C87_endian.

Theorem C87_encoders :
  (forall S F E V (encode : encode_fn V) (C : bulk_consumer S byte F E), calm_encode encode -> forall s,
     calm_consumer C s -> calm_buffered_consumer (encoder encode C) s) /\
  (forall S F E V RT (relative_encode : RT -> encode_fn V) (C : bulk_consumer S byte F E), (forall r, calm_encode (relative_encode r)) -> forall s r,
     calm_consumer C s -> calm_buffered_consumer (relative_encoder relative_encode C) (mk_relative s r)).
Proof. split; [exact @encoder_calm|exact @relative_encoder_calm]. Qed.
Print Assumptions C87_encoders.

Theorem C87_decoders :
  (forall S F E V O (decode : decode_fn V O) (P : bulk_producer S byte F E) sl, calm_decode decode -> keeps_length P -> forall s,
     calm_producer sl P s -> calm_buffered_producer sl (decoder decode P) s) /\
  (forall S F E V O RT (relative_decode : RT -> decode_fn V O) (P : bulk_producer S byte F E) sl, (forall r, calm_decode (relative_decode r)) ->
     keeps_length P -> forall s r, calm_producer sl P s -> calm_buffered_producer sl (relative_decoder relative_decode P) (mk_relative s r)).
Proof. split; [exact @decoder_calm|exact @relative_decoder_calm]. Qed.
Print Assumptions C87_decoders.
Example C87_codecs_ex :
  calm_buffered_producer true (decoder (endian_decode U16BE) (@from_slice_producer byte)) (from_slice_new [x01; x02; x03]) /\
  omap (fun x => match snd x with Err (UnexpectedEndOfInput _) => true | _ => false end)
    (bind (p_produce (decoder (endian_decode U16BE) from_slice_producer) (from_slice_new [x01; x02; x03]))
       (fun x => p_produce (decoder (endian_decode U16BE) from_slice_producer) (fst x))) = Ret true /\
  calm_buffered_consumer (encoder (endian_encode U16BE) (limit_consumer (into_vec_consumer x00))) (limit_new (into_vec_from_vec []) 3).
Proof.
  split; [apply C87_decoders; [apply C87_endian|apply C87_defaults|apply C87_basics]|]. split; [reflexivity|].
  apply C87_encoders; [apply C87_endian|]. apply (proj2 C87_limit); apply into_vec_calm.
Qed.

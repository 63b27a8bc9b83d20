(** C113: the BulkScramblers around objects whose methods panic. Of the objects it is only assumed that their panics are answers
    ([Unwound], with the state they leave behind), so that [Panic] is always a panic of the scrambler itself. *)
From Coq Require Import Bool List Arith Lia.
From Verif Require Import Prelude Traits QueueModel QueueProofs BasicModel CloneModel ScramblerModel ScramblerProofs PanicModel PanicSpec PanicScramblerModel
  PanicScramblerSpec PanicScramblerProofs.
Import ListNotations.

(** The scrambler does not panic by itself, and hands out exactly what it drew from the inner producer, in that order, except for what it still
    holds: at most its capacity, and nothing once it has answered with the final value or an error. It marks items as produced directly after they
    were exposed and never more than were. This is so whichever calls panic; each panic inside makes one call of the caller panic, and nothing else does. *)
Theorem C113_producer : forall W S T F E dbg fuel (P : v_producer W S T F E) x0 s pattern capacity calls w,
  (forall o s w, p_call P o s w <> Panic) -> 0 < capacity ->
  p_use (pscr_producer_v dbg fuel P) [] calls (pscr_new_with_capacity x0 s pattern capacity) w = NoFuel \/
  exists s' w' history inner_calls inner_answers held,
    p_use (pscr_producer_v dbg fuel P) [] calls (pscr_new_with_capacity x0 s pattern capacity) w = Ret (s', w', history) /\
    p_run P inner_calls s w = Ret (ps_inner s', w', inner_answers) /\
    drawn inner_calls inner_answers (given [] history ++ held) /\
    count panicked inner_answers = count panicked (map snd history) /\
    length held <= capacity /\ (ends history = true -> held = []).
Proof.
  intros W S T F E dbg fuel P x0 s pattern capacity calls w N Hc.
  assert (HW : pscr_wf capacity (if pscr_make_progress pattern then pattern else pattern ++ [ScProduce]) (pscr_new_with_capacity (F := F) (E := E) x0 s pattern capacity) []).
  { unfold pscr_wf, pscr_new_with_capacity, fixed_new. cbn. split; [now apply fixed_new_R|]. split; [reflexivity|].
    destruct (pscr_make_progress pattern) eqn:Ep; [destruct pattern; [discriminate|cbn; lia]|rewrite app_length; cbn; lia]. }
  destruct (@use_pulls W S T F E dbg P N capacity _ Hc fuel calls _ w [] [] [] HW eq_refl) as [H|(s' & w' & h & o & a & l & kept & H & R & D & Hl & K & HW' & He)]; [now left|].
  right. exists s', w', h, o, a, kept. split; [exact H|]. split; [exact R|]. cbn [app] in Hl. subst l. split; [exact D|]. split; [exact K|]. split; [apply (pscr_wf_cap HW')|exact He].
Qed.
Print Assumptions C113_producer.

(** Without debug assertions, the scrambler does not panic by itself, and puts into the inner consumer exactly what it accepted, in that order, except for what it
    still holds: at most its capacity, and nothing after a successful [flush] or [close]. It passes on only final values it was given, and each panic
    inside makes one call of the caller panic. *)
Theorem C113_consumer : forall W S T F E fuel (C : v_consumer W S T F E) x0 s pattern capacity calls w,
  (forall o s w, c_call C o s w <> Panic) -> 0 < capacity ->
  c_use (cscr_consumer_v false x0 fuel C) 0 [] calls (cscr_new_with_capacity x0 s pattern capacity) w = NoFuel \/
  exists s' w' history inner_calls inner_answers arrived finals held,
    c_use (cscr_consumer_v false x0 fuel C) 0 [] calls (cscr_new_with_capacity x0 s pattern capacity) w = Ret (s', w', history) /\
    c_run C inner_calls s w = Ret (cs_inner s', w', inner_answers) /\
    fed inner_calls inner_answers arrived finals /\
    count c_panicked inner_answers = count c_panicked (map snd history) /\
    accepted 0 [] history = arrived ++ held /\ subsequence finals (closings history) /\
    length held <= capacity /\ (settled history = true -> held = []).
Proof.
  intros W S T F E fuel C x0 s pattern capacity calls w N Hc.
  assert (HW : holds capacity (if cscr_make_progress pattern then pattern else pattern ++ [ScConsume]) (cscr_new_with_capacity x0 s pattern capacity) [] 0 []).
  { unfold holds, cscr_new_with_capacity, fixed_new. cbn. split; [now apply fixed_new_R|]. split; [reflexivity|].
    destruct (cscr_make_progress pattern) eqn:Ep; [destruct pattern; [discriminate|cbn; lia]|rewrite app_length; cbn; lia]. }
  destruct (@use_pushes W S T F E x0 C N capacity _ Hc fuel calls _ w [] 0 [] HW) as [H|(s' & w' & h & o & a & l & fs & kept & k' & ys' & H & R & D & Hl & K & HW' & He & Hf)]; [now left|].
  right. exists s', w', h, o, a, l, fs, kept. cbn [app] in Hl. split; [exact H|]. split; [exact R|]. split; [exact D|]. split; [exact K|]. split; [exact Hl|].
  split; [exact Hf|]. split; [apply (holds_cap Hc HW')|exact He].
Qed.
Print Assumptions C113_consumer.

(** Around objects that do not panic these are the scramblers of ScramblerModel.v. *)
Theorem C113_calm : forall W S T F E dbg fuel x0 (P : bulk_producer S T F E) (C : bulk_consumer S T F E),
  p_same (W := W) (pscr_producer_v dbg fuel (calm_producer P)) (calm_producer (pscr_producer dbg fuel P)) /\
  c_same (W := W) (cscr_consumer_v dbg x0 fuel (calm_consumer C)) (calm_consumer (cscr_consumer dbg x0 fuel C)).
Proof. intros. exact (conj (calm_scrambler_p dbg P fuel) (calm_scrambler_c dbg x0 C fuel)). Qed.
Print Assumptions C113_calm.

(** ** Cases *)

(** A producer of the numbers from [s] on, which exposes two and ends after 5, and of which every other call, unless it is one of [consider_produced], panics before it has done anything; [w] counts calls. *)
Definition other {S X E} (k : S -> S * res X E) (s : S) (w : nat) : outcome (S * nat * caught (res X E)) :=
  if Nat.even w then Ret (s, w + 1, Unwound) else let (s, r) := k s in Ret (s, w + 1, Done r).
Definition jumpy : v_producer nat nat nat bool bool :=
  mk_v_producer (other (fun s => if s <? 6 then (s + 1, Ok (inl s)) else (s, Ok (inr true)))) (other (fun s => (s, Ok tt)))
    (other (fun s => (s, if s <? 6 then Ok (inl [s; s + 1]) else Ok (inr true))))
    (fun n s w => Ret (s + n, w + 1, Done (Ok tt))).

Example C113_producer_case :
  (forall o s w, p_call jumpy o s w <> Panic) /\
  exists s' h, p_use (pscr_producer_v true 9 jumpy) [] [PProduce; PSlurp; PExpose; PExpose; PConsider 7; PConsider 1; PProduce; PProduce; PProduce; PProduce; PProduce; PExpose; PConsider 1; PExpose]
      (pscr_new_with_capacity 0 1 [ScProduce; ScConsiderProduced 2; ScSlurp] 3) 0 = Ret (s', 14, h) /\
    ps_inner s' = 7 /\ given [] h = [1; 2; 3; 4; 5; 6] /\ count panicked (map snd h) = 5 /\ ends h = true.
Proof.
  split.
  - intros [| | |n] s w; cbn; unfold other; destruct (Nat.even w); try discriminate; try (destruct (s <? 6); discriminate).
  - eexists _, _. split; [vm_compute; reflexivity|]. vm_compute. repeat split.
Qed.

(** A consumer that keeps what it gets, with two slots, of which every other call, unless it is one of [consume_slots], panics before it has done anything. *)
Definition jumpy_sink : v_consumer nat (list nat * list nat) nat bool bool :=
  mk_v_consumer (fun x => other (fun s => ((fst s ++ [x], []), Ok tt))) (fun f => other (fun s => (s, Ok tt))) (other (fun s => (s, Ok tt)))
    (other (fun s => ((fst s, []), Ok 2))) (fun ys s => (fst s, ys ++ skipn (length ys) (snd s)))
    (fun n s w => Ret ((fst s ++ firstn n (snd s), skipn n (snd s)), w + 1, Done (Ok tt))).

Example C113_consumer_case :
  (forall o s w, c_call jumpy_sink o s w <> Panic) /\
  exists s' h, c_use (cscr_consumer_v false 0 9 jumpy_sink) 0 [] [CConsume 1; CExpose; CWrite [2; 3; 4; 5]; CConsumeSlots 7; CConsume 6; CConsume 7; CFlush; CFlush; CFlush; CClose true; CClose true]
      (cscr_new_with_capacity 0 ([], []) [ScConsumeSlots 2; ScConsume; ScFlush] 3) 0 = Ret (s', 12, h) /\
    accepted 0 [] h = [1; 2; 3; 7] /\ fst (cs_inner s') = [1; 2; 3; 7] /\ settled h = true.
Proof.
  split.
  - intros [x|f| | |ys|n] s w; cbn; unfold other; try destruct (Nat.even w); discriminate.
  - eexists _, _. split; [vm_compute; reflexivity|]. vm_compute. repeat split.
Qed.

(** ** What is not so *)

(** One might expect that each item of the inner producer is handed out once, when no call that panics has done anything. The buffer gets the items before
    [consider_produced] is called, and gets them again after that panicked. *)
Theorem C113_once_refuted : exists (P : v_producer nat nat nat bool bool) s' w' h,
  (forall n s w s' w', v_consider P n s w = Ret (s', w', Unwound) -> s' = s) /\
  (forall s w s' w' r, v_expose P s w = Ret (s', w', r) -> s' = s /\ r = Done (if s <? 4 then Ok (inl [s; s + 1]) else Ok (inr true))) /\
  p_use (pscr_producer_v true 9 P) [] (repeat PProduce 9) (pscr_new_with_capacity 9 0 [ScConsiderProduced 2] 4) 0 = Ret (s', w', h) /\
  given [] h = [0; 1; 0; 1; 2; 3].
Proof.
  exists (mk_v_producer (fun s w => Ret (s, w, Unwound)) (fun s w => Ret (s, w, Done (Ok tt)))
    (fun s w => Ret (s, w, Done (if s <? 4 then Ok (inl [s; s + 1]) else Ok (inr true))))
    (fun n s w => if w =? 0 then Ret (s, w + 1, Unwound) else Ret (s + n, w + 1, Done (Ok tt)))).
  eexists _, _, _. split; [|split; [|split; [vm_compute; reflexivity|vm_compute; reflexivity]]].
  - intros n s w s' w' H. cbn in H. destruct (w =? 0); injection H as <- <-; [reflexivity|discriminate].
  - intros s w s' w' r H. cbn in H. injection H as <- _ <-. split; reflexivity.
Qed.
Print Assumptions C113_once_refuted.

(** One might expect that one panic in [consume] of the inner consumer costs at most one item. It costs two: the one that was given to the inner consumer, and the one
    that the scrambler was asked to consume at the time. *)
Theorem C113_one_lost_refuted : exists (C : v_consumer nat (list nat) nat bool bool) s' w' h,
  (forall x s w, v_consume C x s w = if w =? 0 then Ret (s, 1, Unwound) else Ret (s ++ [x], w + 1, Done (Ok tt))) /\
  c_use (cscr_consumer_v false 9 9 C) 0 [] [CConsume 1; CConsume 2; CConsume 3; CClose true] (cscr_new_with_capacity 9 [] [ScConsume] 1) 0 = Ret (s', w', h) /\
  map snd h = [CUnit (Done (Ok tt)); CUnit Unwound; CUnit (Done (Ok tt)); CUnit (Done (Ok tt))] /\ cs_inner s' = [3].
Proof.
  exists (mk_v_consumer (fun x s w => if w =? 0 then Ret (s, 1, Unwound) else Ret (s ++ [x], w + 1, Done (Ok tt))) (fun f s w => Ret (s, w, Done (Ok tt)))
    (fun s w => Ret (s, w, Done (Ok tt))) (fun s w => Ret (s, w, Unwound)) (fun ys s => s) (fun n s w => Ret (s, w, Unwound))).
  eexists _, _, _. split; [reflexivity|]. split; [vm_compute; reflexivity|]. split; vm_compute; reflexivity.
Qed.
Print Assumptions C113_one_lost_refuted.

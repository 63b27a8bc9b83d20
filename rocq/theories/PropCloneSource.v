(** Property C110: producers that clone their items, for any implementation of [Clone]. *)
From Coq Require Import Bool List Arith Lia.
From Verif Require Import Prelude Traits Contracts ContractFacts BasicModel BasicProofs AdaptorModel AdaptorSpec AdaptorProofs
  CloneModel CloneSpec CloneProofs ClosureModel ClosureSpec ScramblerModel ScramblerProofs CloneScramblerModel CloneScramblerSpec CloneScramblerProofs
  CloneSourceModel CloneSourceSpec CloneSourceProofs PropClone PropCloneScrambler.
Import ListNotations.

(** *** C110 *)

(** Any calls to a slice producer within the rules, with panics of [clone] caught at each of them. *)
Theorem C110_slice_with_any_clone :
  forall (W T : Type) (clone : T -> W -> W * option T) (items : list T) (calls : list (sop T)) (w : W),
  g_conforms clone (Ok tt) (Ok tt) (from_slice_produce_cloning clone) (@from_slice_producer T) calls (from_slice_new items) w (GAt items None 0).
Proof.
  intros W T clone items calls w.
  exact (@free_conforms W _ T _ _ clone _ _ _ _ (@from_slice_core T) (@from_slice_gives W T clone) (Ok tt) calls _ items 0 w (@fs_rel_new T items)).
Qed.
Print Assumptions C110_slice_with_any_clone.

(** Likewise for a test producer, whatever it was built from. *)
Theorem C110_test_producer_with_any_clone :
  forall (W T F E : Type) (clone : T -> W -> W * option T) (items : list T) (last : res F E) sizes pattern (calls : list (sop T)) (w : W),
  (match sizes with Some l => Forall (fun n => 1 <= n) l | None => True end) ->
  g_conforms clone last last (test_producer_produce_cloning clone) (@test_producer T F E) calls
    (test_producer_build items last sizes pattern) w (GAt items None 0).
Proof.
  intros W T F E clone items last sizes pattern calls w Hs.
  exact (@free_conforms W _ T F E clone _ _ _ _ (@test_producer_core T F E) (@test_producer_gives W T F E clone) last calls _ items 0 w (@tp_rel_build _ _ _ items last sizes pattern Hs)).
Qed.
Print Assumptions C110_test_producer_with_any_clone.

(** Invariant and MapFinal around a producer of this kind are of this kind, any number of them. *)
Theorem C110_adaptors_keep_to_it :
  forall (W S T F E B : Type) (clone : T -> W -> W * option T) produce (P : bulk_producer S T F E) R D (g : F -> B),
  lawful_producer_core P R D -> gives clone produce R D ->
  (lawful_producer_core (invariant_producer P) (@inv_rel S T F E R) (@inv_end S D) /\
   gives clone (invariant_produce_cloning produce) (@inv_rel S T F E R) (@inv_end S D)) /\
  (lawful_producer_core (map_final_producer P) (mf_rel g R) (mf_end D) /\
   gives clone (map_final_produce_cloning produce) (mf_rel g R) (mf_end D)) /\
  forall s xs l k, R s xs l k ->
    inv_rel R (invariant_new s) xs l 0 /\
    mf_rel g R (with_fun_new s g) xs (match l with Ok f => Ok (g f) | Err e => Err e end) k.
Proof.
  intros W S T F E B clone produce P R D g L G. split; [|split].
  - split; [exact (invariant_core L)|exact (invariant_gives G)].
  - split; [exact (@map_final_mf S T F B E g P R D L)|exact (@map_final_gives W S T F B E g clone produce R D G)].
  - intros s xs l k HR. split.
    + split; [exact (lp_forget L HR)|split; [reflexivity|cbn; lia]].
    + split; [reflexivity|]. exists l. split; [exact HR|reflexivity].
Qed.
Print Assumptions C110_adaptors_keep_to_it.

(** Nothing is lost and nothing comes twice, however often [clone] panics. *)
Theorem C110_nothing_lost :
  forall (W S T F E : Type) (clone : T -> W -> W * option T) produce (P : bulk_producer S T F E) R D s xs l k (calls : list (sop T)) (w : W),
  lawful_producer_core P R D -> gives clone produce R D -> R s xs l k ->
  exists h s' w' a',
    g_history clone l l produce P s w (GAt xs None 0) h s' w' a' /\
    (calls = map fst h \/ exists o calls', calls = map fst h ++ o :: calls' /\ ~ g_permitted a' o) /\
    exists handled, Forall2 (descends clone) handled (s_emitted [] h) /\
      match a' with
      | GAt later _ _ => xs = handled ++ later /\ exists k', R s' later l k'
      | GEnded _ => xs = handled /\ D s'
      end.
Proof.
  intros W S T F E clone produce P R D s xs l k calls w L G HR.
  destruct (@free_run W S T F E clone produce P R D L G l calls s xs 0 w (lp_forget L HR)) as (h & s' & w' & a' & Hh & HF & Hc).
  exists h, s', w', a'. split; [exact Hh|]. split; [exact Hc|].
  destruct (@g_account W S T F E clone l l produce P s w _ h s' w' a' Hh xs None 0 eq_refl) as (handled & Hx & Hd & _ & Hn); [cbn; split; [lia|exact I]|].
  exists handled. split; [exact Hd|]. destruct a' as [later lim k'|rest].
  - split; [exact Hx|]. cbn in Hn. subst lim. exists k'. exact HF.
  - destruct HF as [-> HD]. cbn in Hx. rewrite app_nil_r in Hx. split; [exact Hx|exact HD].
Qed.
Print Assumptions C110_nothing_lost.

(** A limit around a producer of this kind: any calls. *)
Theorem C110_limit_with_any_clone :
  forall (W S T F E : Type) (clone : T -> W -> W * option T) produce (P : bulk_producer S T F E) R D s xs l k (n : nat) (calls : list (sop T)) (w : W),
  lawful_producer_core P R D -> gives clone produce R D -> R s xs l k ->
  g_conforms clone (Ok None) (match l with Ok f => Ok (Some f) | Err e => Err e end) (limit_produce_cloning produce) (limit_producer P) calls
    (limit_new s n) w (GAt xs (Some n) 0).
Proof.
  intros W S T F E clone produce P R D s xs l k n calls w L G HR.
  exact (@bound_conforms W S T F E clone produce P R D L G l calls s xs n k w HR).
Qed.
Print Assumptions C110_limit_with_any_clone.

(** What comes out of it: nothing is lost, but each [produce] that panicked counts against the limit. *)
Theorem C110_limit_counts_panics :
  forall (W S T F E : Type) (clone : T -> W -> W * option T) produce (P : bulk_producer S T F E) R D s xs l k (n : nat) (calls : list (sop T)) (w : W),
  lawful_producer_core P R D -> gives clone produce R D -> R s xs l k ->
  exists h s' w' a',
    g_history clone (Ok None) (match l with Ok f => Ok (Some f) | Err e => Err e end) (limit_produce_cloning produce) (limit_producer P)
      (limit_new s n) w (GAt xs (Some n) 0) h s' w' a' /\
    (calls = map fst h \/ exists o calls', calls = map fst h ++ o :: calls' /\ ~ g_permitted a' o) /\
    exists handled later, xs = handled ++ later /\ Forall2 (descends clone) handled (s_emitted [] h) /\
      match a' with
      | GAt _ _ _ => length handled + s_torn h + lim_remaining s' = n /\ exists k', R (lim_inner s') later l k'
      | GEnded _ => (length handled + s_torn h = n /\ R (lim_inner s') later l 0) \/
                    (length handled + s_torn h <= n /\ later = [])
      end.
Proof.
  intros W S T F E clone produce P R D s xs l k n calls w L G HR.
  destruct (@bound_run W S T F E clone produce P R D L G l calls s xs n k w HR) as (h & s' & w' & a' & Hh & HF & Hc).
  exists h, s', w', a'. split; [exact Hh|]. split; [exact Hc|].
  destruct (g_account Hh eq_refl) as (handled & Hx & Hd & Hf & Hn); [cbn; split; lia|].
  exists handled, (g_rest a'). split; [exact Hx|]. split; [exact Hd|]. unfold fits in Hf. destruct a' as [later lim k'|rest].
  - unfold less in Hn. subst lim. cbn in HF. destruct HF as (H1 & ki & H2 & _). split; [lia|]. exists ki. exact H2.
  - cbn [g_rest]. destruct HF as [HF|[HF _]].
    + destruct Hn as [Hn|Hn]; [left; split; [congruence|exact HF]|right; split; [exact Hf|exact Hn]].
    + right. split; [exact Hf|exact HF].
Qed.
Print Assumptions C110_limit_counts_panics.

(** One call after the other. *)
Fixpoint g_sequence {W S T F E} (clone : T -> W -> W * option T) (produce : S -> W -> outcome (S * W * caught (res (T + F) E))) (P : bulk_producer S T F E)
    (calls : list (sop T)) (s : S) (w : W) : outcome (W * list (sans T F E)) :=
  match calls with
  | [] => Ret (w, [])
  | o :: calls =>
      let* (s, w, r) := g_do clone produce P o s w in
      let* (w, rs) := g_sequence clone produce P calls s w in
      Ret (w, r :: rs)
  end.

(** A [clone] that panics now and then, here at the first call, and otherwise copies. *)
Definition ex_clone_once (x w : nat) : nat * option nat := (w + 1, if w =? 0 then None else Some x).

(** That a limit of n lets through the first n items is not true then: of two items, with a limit of two, only one comes out, although
    the clone that panicked was never handed over and the slice producer still has its item. With [expose] and
    [bulk_produce] instead, a panic does not count. *)
Theorem C110_limit_refuted :
  exists (items : list nat) (n : nat) (w : nat),
    n = length items /\
    (exists s', g_history ex_clone_once (Ok None) (Ok (Some tt)) (limit_produce_cloning (from_slice_produce_cloning ex_clone_once))
        (limit_producer (@from_slice_producer nat)) (limit_new (from_slice_new items) n) w (GAt items (Some n) 0)
        [(SProduce, SAItem Unwound); (SProduce, SAItem (Done (Ok (inl 1)))); (SProduce, SAItem (Done (Ok (inr None))))] s' 2 (GEnded [2]) /\
      from_slice_not_yet_produced (lim_inner s') = Ret [2]) /\
    g_sequence ex_clone_once (limit_produce_cloning (from_slice_produce_cloning ex_clone_once)) (limit_producer (@from_slice_producer nat))
      [SBulkProduce [0; 0; 0]; SBulkProduce [0; 0; 0]; SProduce] (limit_new (from_slice_new items) n) w =
      Ret (3, [SABuf [0; 0; 0] Unwound; SABuf [1; 2; 0] (Done (Ok (inl 2))); SAItem (Done (Ok (inr None)))]).
Proof.
  exists [1; 2], 2, 0. split; [reflexivity|]. split; [|vm_compute; reflexivity].
  exists (mk_limit (mk_from_slice [1; 2] 1) 0). split; [|reflexivity].
  eapply g_history_step with (a1 := GAt [1; 2] (Some 1) 0); [exact I|vm_compute; reflexivity| |].
  - exists 1, [2]. cbn. repeat split. lia.
  - eapply g_history_step with (a1 := GAt [2] (Some 0) 0); [exact I|vm_compute; reflexivity| |].
    + left. exists 1, 1, [2]. cbn. repeat split; [lia|]. right. reflexivity.
    + eapply g_history_step; [exact I|vm_compute; reflexivity| |constructor].
      right. repeat split. left. split; reflexivity.
Qed.
Print Assumptions C110_limit_refuted.

(** A scrambler around a test producer, with [clone] run by both (C108). *)
Theorem C110_scrambled_test_producer :
  forall (W T F E : Type) (clone : T -> W -> W * option T) (dbg : bool) (x0 : T) (items : list T) (last : res F E) sizes pattern pat cap fuel
    (calls : list (sop T)) (w : W),
  (match sizes with Some l => Forall (fun n => 1 <= n) l | None => True end) ->
  1 <= cap -> (forall n, In (ScConsiderProduced n) pat -> 1 <= n) -> ~ In ScSlurp pat ->
  Datatypes.S cap * Datatypes.S (length pat) <= fuel ->
  s_conforms clone last dbg fuel (test_producer_produce_cloning clone) (@test_producer T F E) calls
    (pscr_new_with_capacity x0 (test_producer_build items last sizes pattern) pat cap) w (SAt [] items 0).
Proof.
  intros W T F E clone dbg x0 items last sizes pattern pat cap fuel calls w Hs Hc Hn Hp Hf.
  exact (C108_scrambler_with_any_clone W _ T F E clone dbg _ _ _ _ x0 _ items last 0 pat cap fuel calls w
    (@test_producer_core T F E) (@test_producer_gives W T F E clone) (@tp_rel_build _ _ _ items last sizes pattern Hs) Hc Hn (or_intror Hp) Hf).
Qed.
Print Assumptions C110_scrambled_test_producer.

(** A pipe from a producer of this kind, called again after each panic: the consumer gets each item once, as it is or as a clone,
    and goes on with the item whose [clone] panicked. *)
Theorem C110_pipe_again :
  forall (W T A F PE CE SP SC : Type) (clone : T -> W -> W * option T) (M : machine A T F CE) produce
    (P : bulk_producer SP T F PE) RP DP, lawful_producer_core P RP DP -> gives clone produce RP DP ->
  forall (C : bulk_consumer SC T F CE) RC DC, lawful_consumer_core C M RC DC ->
  forall attempts xs fuel sp sc w l k a kc v, RP sp xs l k -> RC sc a kc v -> length xs < fuel ->
  let run := pipe_again produce (calm_consume C) (calm_close C) attempts fuel sp sc w in
  exists sp' sc' rest a' w' r, piped clone M attempts xs a w rest a' w' r /\
    match r with
    | AllTaken => run = Ret (sp', sc', w', Done (pipe_end M l a')) /\ DP sp' /\
        match l with Ok fin => DC sc' (fst (m_finish M fin a')) | Err _ => RC sc' a' 0 [] end
    | Refused e => run = Ret (sp', sc', w', Done (Err (PipeConsumer e))) /\ RP sp' rest l 0 /\ DC sc' a'
    | Panicked => run = Ret (sp', sc', w', Unwound) /\ RP sp' rest l 0 /\ RC sc' a' 0 []
    end.
Proof.
  intros W T A F PE CE SP SC clone M produce P RP DP LP G C RC DC LC attempts xs fuel sp sc w l k a kc v HP HC Hf.
  exact (@pipe_again_loses_nothing W T A F PE CE SP SC clone M produce P RP DP LP G C RC DC LC attempts xs fuel sp sc w l k a kc v HP HC Hf).
Qed.
Print Assumptions C110_pipe_again.

Example C110_example_pipe :
  (let* (sp, sc, w, r) := pipe_again (test_producer_produce_cloning ex_clone) (calm_consume (into_vec_consumer 0)) (calm_close (into_vec_consumer 0)) 3 5
     (test_producer_build [1; 2; 13; 4] (Ok tt) None None : test_producer_state nat unit nat) into_vec_new 0 in
   let* rest := test_producer_remaining sp in Ret (rest, into_vec_into_vec sc, w, r)) = Ret ([13; 4], [101; 102], 5, Unwound) /\
  (let* (sp, sc, w, r) := pipe_again (test_producer_produce_cloning ex_clone_once) (calm_consume (into_vec_consumer 0)) (calm_close (into_vec_consumer 0)) 2 5
     (test_producer_build [1; 2; 13; 4] (Ok tt) None None : test_producer_state nat unit nat) into_vec_new 0 in
   let* rest := test_producer_remaining sp in Ret (rest, into_vec_into_vec sc, w, r)) = Ret ([], [1; 2; 13; 4], 5, Done (Ok tt)).
Proof. split; vm_compute; reflexivity. Qed.

(** With the identity for [clone], these are the models of the other files. *)
Theorem C110_plain_clone_is_the_plain_model :
  (forall (T F E : Type) (s : test_producer_state T F E),
    test_producer_produce_cloning plain_clone s tt = let* (s', r) := test_producer_produce s in Ret (s', tt, Done r)) /\
  (forall (S T F E : Type) (P : bulk_producer S T F E),
    (forall s, limit_produce_cloning (calm_produce P) s tt = let* (s', r) := limit_produce P s in Ret (s', tt, Done r)) /\
    (forall B (s : with_fun S (F -> B)), map_final_produce_cloning (calm_produce P) s tt = let* (s', r) := map_final_produce P s in Ret (s', tt, Done r)) /\
    (forall s, invariant_produce_cloning (calm_produce P) s tt = let* (s', r) := invariant_produce P s in Ret (s', tt, Done r))).
Proof. split; [exact test_producer_plain|exact adaptors_plain]. Qed.
Print Assumptions C110_plain_clone_is_the_plain_model.

(** The item 13 blocks the way, but nothing is lost, and the final value is still there. *)
Example C110_example_test_producer :
  g_sequence ex_clone (test_producer_produce_cloning ex_clone) (@test_producer nat nat nat)
    [SProduce; SProduce; SProduce; SExpose; SConsider 1; SProduce; SBulkProduce [0]]
    (test_producer_build [1; 13; 2] (Ok 7) (Some [1; 2]) (Some [true; false])) 0
  = Ret (4, [SAItem (Done (Ok (inl 101))); SAItem Unwound; SAItem Unwound; SASlice (Done (Ok (inl [13]))); SAUnit (Ok tt);
             SAItem (Done (Ok (inl 102))); SABuf [0] (Done (Ok (inr 7)))]).
Proof. vm_compute. reflexivity. Qed.

(** The same through MapFinal and Invariant: the panic leaves both usable. *)
Example C110_example_adaptors :
  g_sequence ex_clone (invariant_produce_cloning (map_final_produce_cloning (test_producer_produce_cloning ex_clone)))
    (invariant_producer (map_final_producer (@test_producer nat nat nat)))
    [SProduce; SProduce; SExpose; SConsider 1; SProduce; SProduce]
    (invariant_new (with_fun_new (test_producer_build [1; 13; 2] (Ok 7) None None) (fun f => f + 1))) 0
  = Ret (3, [SAItem (Done (Ok (inl 101))); SAItem Unwound; SASlice (Done (Ok (inl [13; 2]))); SAUnit (Ok tt);
             SAItem (Done (Ok (inl 102))); SAItem (Done (Ok (inr 8)))]).
Proof. vm_compute. reflexivity. Qed.

(** The hypotheses of the theorems, for a test producer with these items. *)
Example C110_ex_hypotheses :
  lawful_producer_core (@test_producer nat nat nat) (@tp_rel nat nat nat) (@tp_end nat nat nat) /\
  gives ex_clone (test_producer_produce_cloning ex_clone) (@tp_rel nat nat nat) (@tp_end nat nat nat) /\
  @tp_rel nat nat nat (test_producer_build [1; 13; 2] (Ok 7) (Some [1; 2]) (Some [true; false])) [1; 13; 2] (Ok 7) 0.
Proof.
  split; [apply test_producer_core|]. split; [apply test_producer_gives|]. apply tp_rel_build. repeat constructor.
Qed.

(** A limit of four over three items: the panic takes its share, so that the final value does not come. *)
Example C110_example_limit :
  g_sequence ex_clone (limit_produce_cloning (test_producer_produce_cloning ex_clone)) (limit_producer (@test_producer nat nat nat))
    [SProduce; SProduce; SExpose; SConsider 1; SProduce; SProduce]
    (limit_new (test_producer_build [1; 13; 2] (Ok 7) None None) 4) 0
  = Ret (3, [SAItem (Done (Ok (inl 101))); SAItem Unwound; SASlice (Done (Ok (inl [13; 2]))); SAUnit (Ok tt);
             SAItem (Done (Ok (inl 102))); SAItem (Done (Ok (inr None)))]).
Proof. vm_compute. reflexivity. Qed.

(** Each item is cloned on the way into the queue and on the way out of it. *)
Example C110_example_scrambled :
  s_run ex_clone 100 (test_producer_produce_cloning ex_clone) (@test_producer nat nat nat) [SProduce; SProduce; SExpose; SProduce]
    (pscr_new_with_capacity 0 (test_producer_build [1; 13; 2] (Ok 7) None None) [ScProduce] 1) 0
  = Ret (5, [SAItem (Done (Ok (inl 201))); SAItem Unwound; SASlice Unwound; SAItem Unwound]).
Proof. vm_compute. reflexivity. Qed.

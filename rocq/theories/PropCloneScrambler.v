(** Property C108: the producer scrambler for items with any implementation of [Clone]. *)
From Coq Require Import Bool List Arith Lia.
From Verif Require Import Prelude QueueModel QueueSpec QueueProofs Traits Contracts ContractFacts BasicModel
  CloneModel CloneSpec CloneProofs ClosureModel ScramblerModel ScramblerProofs CloneScramblerModel CloneScramblerSpec CloneScramblerProofs PropClone.
Import ListNotations.

(** *** C108 *)

(** Any calls within the rules, with panics of [clone] caught at each of them. *)
Theorem C108_scrambler_with_any_clone :
  forall (W S T F E : Type) (clone : T -> W -> W * option T) (dbg : bool)
    (produce : S -> W -> outcome (S * W * caught (res (T + F) E))) (P : bulk_producer S T F E) R D (x0 : T) s xs l k pat cap fuel
    (calls : list (sop T)) (w : W),
  lawful_producer_core P R D -> gives clone produce R D -> R s xs l k ->
  1 <= cap -> (forall n, In (ScConsiderProduced n) pat -> 1 <= n) ->
  (lawful_slurp P R D \/ ~ In ScSlurp pat) ->
  Datatypes.S cap * Datatypes.S (length pat) <= fuel ->
  s_conforms clone l dbg fuel produce P calls (pscr_new_with_capacity x0 s pat cap) w (SAt [] xs 0).
Proof.
  intros W S T F E clone dbg produce P R D x0 s xs l k pat cap fuel calls w L G HR Hc Hn LS Hf.
  exact (@cl_scrambler_conforms W S T F E clone dbg produce P R D L G x0 s xs l k pat cap fuel HR Hc Hn LS Hf calls w).
Qed.
Print Assumptions C108_scrambler_with_any_clone.

(** Every item is accounted for: handed over, gone with a [produce] that panicked, in the queue, or still inside. *)
Theorem C108_every_item_is_accounted_for :
  forall (W S T F E : Type) (clone : T -> W -> W * option T) (dbg : bool)
    (produce : S -> W -> outcome (S * W * caught (res (T + F) E))) (P : bulk_producer S T F E) R D (x0 : T) s xs l k pat cap fuel
    (calls : list (sop T)) (w : W),
  lawful_producer_core P R D -> gives clone produce R D -> R s xs l k ->
  1 <= cap -> (forall n, In (ScConsiderProduced n) pat -> 1 <= n) ->
  (lawful_slurp P R D \/ ~ In ScSlurp pat) ->
  Datatypes.S cap * Datatypes.S (length pat) <= fuel ->
  exists h s' w' a',
    s_history clone l dbg fuel produce P (pscr_new_with_capacity x0 s pat cap) w (SAt [] xs 0) h s' w' a' /\
    (calls = map fst h \/ exists o calls', calls = map fst h ++ o :: calls' /\ ~ s_permitted a' o) /\
    exists handled fs, Forall2 (meets clone) handled fs /\ came fs = s_emitted [] h /\ gone fs <= s_torn h /\
      match a' with
      | SAt q later _ =>
          length q <= cap /\ (exists ahead, xs = handled ++ ahead ++ later /\ Forall2 (descends clone) ahead q) /\
          ((exists k', R (ps_inner s') later l k') \/ (later = [] /\ D (ps_inner s')))
      | SEnded => xs = handled /\ D (ps_inner s')
      end.
Proof.
  intros W S T F E clone dbg produce P R D x0 s xs l k pat cap fuel calls w L G HR Hc Hn LS Hf.
  exact (@cl_scrambler_accounts W S T F E clone dbg produce P R D L G x0 s xs l k pat cap fuel HR Hc Hn LS Hf calls w).
Qed.
Print Assumptions C108_every_item_is_accounted_for.

(** A [clone] that never panics: nothing is lost. *)
Theorem C108_total_clone_loses_nothing :
  forall (W S T F E : Type) (clone : T -> W -> W * option T) (l : res F E) (dbg : bool) (fuel : nat)
    (produce : S -> W -> outcome (S * W * caught (res (T + F) E))) (P : bulk_producer S T F E) s w xs h s' w' a',
  (forall x w, snd (clone x w) <> None) ->
  s_history clone l dbg fuel produce P s w (SAt [] xs 0) h s' w' a' ->
  exists handled rest, xs = handled ++ rest /\
    Forall2 (fun x y => exists z, descends clone x z /\ descends clone z y) handled (s_emitted [] h) /\
    (a' = SEnded -> rest = []).
Proof. intros W S T F E clone l dbg fuel produce P s w xs h s' w' a' Ht Hh. exact (total_clone Ht Hh). Qed.
Print Assumptions C108_total_clone_loses_nothing.

(** A [clone] that may panic, but otherwise copies: the items come as they are, without those that were lost. *)
Theorem C108_faithful_clone :
  forall (W S T F E : Type) (clone : T -> W -> W * option T) (l : res F E) (dbg : bool) (fuel : nat)
    (produce : S -> W -> outcome (S * W * caught (res (T + F) E))) (P : bulk_producer S T F E) s w xs h s' w' a',
  (forall x w w' y, clone x w = (w', Some y) -> y = x) ->
  s_history clone l dbg fuel produce P s w (SAt [] xs 0) h s' w' a' ->
  exists handled rest n, xs = handled ++ rest /\ thinned n handled (s_emitted [] h) /\ n <= s_torn h /\ (a' = SEnded -> rest = []).
Proof. intros W S T F E clone l dbg fuel produce P s w xs h s' w' a' Hy Hh. exact (faithful_clone Hy Hh). Qed.
Print Assumptions C108_faithful_clone.

(** With the identity for [clone], the model is that of C28. *)
Theorem C108_plain_clone_is_the_plain_model :
  forall (S T F E : Type) (dbg : bool) (P : bulk_producer S T F E) fuel (s : pscr S T F E),
    pscr_produce_cloning plain_clone dbg (calm_produce P) fuel P s tt = (let* (s', r) := p_produce (pscr_producer dbg fuel P) s in Ret (s', tt, Done r)) /\
    pscr_expose_cloning plain_clone dbg (calm_produce P) fuel P s tt = (let* (s', r) := p_expose (pscr_producer dbg fuel P) s in Ret (s', tt, Done r)) /\
    forall buf, pscr_bulk_produce_cloning plain_clone dbg (calm_produce P) fuel P buf s tt =
      let* (s', (buf', r)) := p_bulk_produce (pscr_producer dbg fuel P) buf s in Ret (s', tt, (buf', Done r)).
Proof. exact (fun S T F E dbg P => @pscr_plain S T F E dbg P). Qed.
Print Assumptions C108_plain_clone_is_the_plain_model.

(** A producer for the examples that owns its items and gives them away. *)
Definition ex_owner : bulk_producer (list nat) nat nat nat :=
  bulk_producer_of
    (fun s => match s with [] => Ret ([], Ok (inr 7)) | x :: s => Ret (s, Ok (inl x)) end)
    (fun s => Ret (s, Ok tt))
    (fun s => match s with [] => Ret ([], Ok (inr 7)) | _ => Ret (s, Ok (inl s)) end)
    (fun n s => Ret (skipn n s, Ok tt)).
Definition ex_owner_rel (s xs : list nat) (l : res nat nat) (k : nat) : Prop := s = xs /\ l = Ok 7 /\ k <= length xs.

Example C108_ex_owner_lawful :
  lawful_producer_core ex_owner ex_owner_rel (fun _ => True) /\ gives ex_clone (calm_produce ex_owner) ex_owner_rel (fun _ => True) /\
  lawful_slurp ex_owner ex_owner_rel (fun _ => True) /\
  ex_owner_rel [1; 13; 2] [1; 13; 2] (Ok 7) 0.
Proof.
  unfold ex_owner_rel. split; [constructor|split; [|split]].
  - intros s xs l k (_ & _ & H). exact H.
  - intros s xs l k (-> & -> & _). repeat split. lia.
  - intros s x xs l k (-> & -> & H). cbn in *. eexists. split; [reflexivity|]. repeat split. lia.
  - intros s l k (-> & -> & H). cbn. eauto.
  - intros s xs l k (-> & -> & H) Hx. destruct xs as [|x xs]; [congruence|]. exists (x :: xs), (x :: xs), []. cbn. rewrite app_nil_r. repeat split; [discriminate|lia].
  - intros s l k (-> & -> & H). cbn. eauto.
  - intros s xs l k n (-> & -> & H) H1 H2. cbn. eexists. split; [reflexivity|]. repeat split. rewrite skipn_length. lia.
  - intros s xs l k w (-> & -> & H). destruct xs as [|x xs]; cbn; [eauto|]. left. cbn in H. eexists. split; [reflexivity|]. repeat split. lia.
  - intros s xs l k (-> & -> & H). left. cbn. eauto 6.
  - cbn. repeat split. lia.
Qed.

(** One call after the other. *)
Fixpoint s_run {W S T F E} (clone : T -> W -> W * option T) (fuel : nat) (produce : S -> W -> outcome (S * W * caught (res (T + F) E))) (P : bulk_producer S T F E) (calls : list (sop T)) (s : pscr S T F E) (w : W)
  : outcome (W * list (sans T F E)) :=
  match calls with
  | [] => Ret (w, [])
  | o :: calls =>
      let* (s, w, r) := s_do clone true fuel produce P o s w in
      let* (w, rs) := s_run clone fuel produce P calls s w in
      Ret (w, r :: rs)
  end.

(** Items are moved into the queue, cloned out of it; the item 13 is lost with the second call. *)
Example C108_example_moved :
  s_run ex_clone 100 (calm_produce ex_owner) ex_owner [SProduce; SProduce; SProduce; SProduce] (pscr_new_with_capacity 0 [1; 13; 2] [ScProduce] 2) 0
  = Ret (3, [SAItem (Done (Ok (inl 101))); SAItem Unwound; SAItem (Done (Ok (inl 102))); SAItem (Done (Ok (inr 7)))]).
Proof. vm_compute. reflexivity. Qed.

(** Items are cloned twice, and the item 13 blocks the way: the scrambler never gets past it, but loses nothing either. *)
Example C108_example_stuck :
  s_run ex_clone 100 (calm_produce ex_owner) ex_owner [SProduce; SProduce; SExpose; SBulkProduce [0; 0]] (pscr_new_with_capacity 0 [1; 13; 2] [ScConsiderProduced 1] 1) 0
  = Ret (5, [SAItem (Done (Ok (inl 201))); SAItem Unwound; SASlice Unwound; SABuf [0; 0] Unwound]).
Proof. vm_compute. reflexivity. Qed.

(** A [bulk_produce] that panics has written some clones, but keeps all items. *)
Example C108_example_bulk :
  s_run ex_clone 100 (calm_produce ex_owner) ex_owner [SBulkProduce [0; 0; 0]; SExpose; SConsider 1; SProduce; SBulkProduce [0]; SExpose]
    (pscr_new_with_capacity 0 [1; 13; 2] [ScProduce] 3) 0
  = Ret (4, [SABuf [101; 0; 0] Unwound; SASlice (Done (Ok (inl [1; 13; 2]))); SAUnit (Ok tt); SAItem Unwound;
             SABuf [102] (Done (Ok (inl 1))); SASlice (Done (Ok (inr 7)))]).
Proof. vm_compute. reflexivity. Qed.

(** A history that loses an item, so that the bound of C108_every_item_is_accounted_for is attained. *)
Example C108_example_history :
  exists s', s_history ex_clone (Ok 7) true 100 (calm_produce ex_owner) ex_owner (pscr_new_with_capacity 0 [1; 13; 2] [ScProduce] 2) 0 (SAt [] [1; 13; 2] 0)
    [(SProduce, SAItem (Done (Ok (inl 101)))); (SProduce, SAItem Unwound)] s' 2 (SAt [2] [] 0) /\
  came [Came 101; Gone] = [101] /\ gone [Came 101; Gone] = 1.
Proof.
  eexists. split; [|split; reflexivity].
  eapply s_history_step with (a1 := SAt [13] [2] 0); [exact I|vm_compute; reflexivity| |].
  - left. exists 1, 101, [13], [2], 0. repeat split. exists [1; 13], [1; 13]. repeat split. repeat constructor.
  - eapply s_history_step; [exact I|vm_compute; reflexivity| |constructor].
    right. exists 13, [2], [], 1. repeat split. exists [2], [2]. repeat split. repeat constructor.
Qed.

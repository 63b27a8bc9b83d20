(** Properties C01-C07: queues. *)
From Coq Require Import List Arith Lia.
From Verif Require Import Prelude QueueModel QueueSpec QueueProofs.
Import ListNotations.

Definition q_empty {T} : qabs T := mk_qabs [] 0 [].

(** *** C01 *)

Theorem C01_fixed_is_bounded_fifo :
  forall (T : Type) (c : nat) (tmp : nat -> T) (ops : list (qop T)),
    0 < c ->
    q_conforms (fixed_queue T) c ops (fixed_new_with_manual_tmps c tmp) q_empty.
Proof.
  intros T c tmp ops Hc. exact (lawful_conforms (fixed_lawful c) ops (fixed_new_R tmp Hc)).
Qed.
Print Assumptions C01_fixed_is_bounded_fifo.

(** A wrapping run of capacity 3: five items pass through, two remain. *)
Example C01_example :
  q_run (fixed_queue nat)
    [OpBulkEnqueue [1; 2; 3; 4]; OpEnqueue 9; OpDequeue; OpDequeue; OpEnqueue 4; OpExposeSlots;
     OpWrite [5]; OpConsiderEnqueued 1; OpExposeItems; OpBulkDequeue [0; 0; 0]; OpBulkDequeue [0; 0; 0];
     OpDequeue; OpLen]
    (fixed_new 0 3)
  = Ret (mk_fixed [4; 5; 3] 2 0,
         [ANat 3; AItem (Some 9); AItem (Some 1); AItem (Some 2); AItem None; ASlots (Some 1);
          AUnit; AUnit; AItems (Some [3]); ABuf [3; 0; 0] 1; ABuf [4; 5; 0] 2;
          AItem None; ANat 0]).
Proof. reflexivity. Qed.

(** *** C02 *)

Theorem C02_static_is_bounded_fifo :
  forall (T : Type) (N : nat) (tmp : nat -> T) (ops : list (qop T)),
    0 < N ->
    q_conforms (static_queue N) N ops (static_new_with_manual_tmps N tmp) q_empty.
Proof.
  intros T N tmp ops HN. exact (lawful_conforms (static_lawful N) ops (static_new_R tmp HN)).
Qed.
Print Assumptions C02_static_is_bounded_fifo.

(** Same answers, call by call, also for capacity zero and for callers that
    break the rules (including the same panics). *)
Theorem C02_static_answers_like_fixed :
  forall (T : Type) (N : nat) (tmp : nat -> T) (ops : list (qop T)),
    omap snd (q_run (static_queue N) ops (static_new_with_manual_tmps N tmp))
    = omap snd (q_run (fixed_queue T) ops (fixed_new_with_manual_tmps N tmp)).
Proof.
  intros T N tmp ops.
  assert (H : static_wf N (static_new_with_manual_tmps N tmp)).
  { unfold static_wf. cbn. now rewrite map_length, seq_length. }
  pose proof (static_run_eq ops H) as E.
  change (to_fixed (static_new_with_manual_tmps N tmp)) with (fixed_new_with_manual_tmps N tmp) in E.
  rewrite <- E. destruct (q_run (static_queue N) ops _) as [[]| |]; reflexivity.
Qed.
Print Assumptions C02_static_answers_like_fixed.

Example C02_example :
  omap snd (q_run (static_queue 2) [OpBulkEnqueue [1; 2; 3]; OpDequeue; OpEnqueue 7; OpExposeItems]
    (static_new 2 0))
  = Ret [ANat 2; AItem (Some 1); AItem None; AItems (Some [2])].
Proof. reflexivity. Qed.

(** *** C03: stated for every state reached by a rule-respecting history. *)

Definition exposure_spec {Q T} (I : queue Q T) (c : nat) (q : Q) (items : list T) : Prop :=
  (exists q1 s, q_expose_slots I q = Ret (q1, s) /\
     (s = None <-> length items = c) /\
     (forall n, s = Some n -> 1 <= n <= c - length items)) /\
  (exists q1 s, q_expose_items I q = Ret (q1, s) /\
     (s = None <-> items = []) /\
     (forall l, s = Some l -> l <> [] /\ exists rest, items = l ++ rest)) /\
  (forall buf, exists q1 n, q_bulk_enqueue I buf q = Ret (q1, n) /\
     n <= length buf /\ (0 < n <-> buf <> [] /\ length items < c)) /\
  (forall buf, exists q1 n buf', q_bulk_dequeue I buf q = Ret (q1, (buf', n)) /\
     n <= length buf /\ (0 < n <-> buf <> [] /\ items <> []) /\
     firstn n buf' = firstn n items /\ skipn n buf' = skipn n buf).

Lemma lawful_exposure_spec : forall Q T (I : queue Q T) c R q items k w,
  lawful_queue I c R -> R q items k w -> exposure_spec I c q items.
Proof.
  intros Q T I c R q items k w L HR. destruct (lq_wf L HR) as (Hc & _ & _).
  unfold exposure_spec. repeat apply conj.
  - destruct (Nat.eq_dec (length items) c) as [E|E].
    + exists q, None. split; [exact (lq_expose_slots_full L HR E)|]. split; [tauto|discriminate].
    + destruct (lq_expose_slots L HR) as (q1 & n & E1 & H1 & H2 & _); [lia|].
      exists q1, (Some n). split; [exact E1|]. split; [split; [discriminate|lia]|].
      intros m [= <-]. lia.
  - destruct items as [|x items].
    + exists q, None. split; [exact (lq_expose_items_empty L HR)|]. split; [tauto|discriminate].
    + destruct (lq_expose_items L HR) as (q1 & s & rest & E1 & H1 & H2 & _); [discriminate|].
      exists q1, (Some s). split; [exact E1|]. split; [split; discriminate|].
      intros l [= <-]. eauto.
  - intros buf. destruct (lawful_bulk_enqueue L buf HR) as (q1 & n & E & H1 & H2 & H3 & _).
    exists q1, n. split; [exact E|]. split; [exact H1|].
    assert (D : buf = [] \/ buf <> []) by (destruct buf; [left; reflexivity|right; discriminate]).
    split.
    + intros Hn. split; [intros ->|]; [cbn in H1; lia|]. destruct (Nat.eq_dec (length items) c); lia.
    + intros [Hb Hl]. destruct (Nat.eq_dec n 0) as [E0|]; [|lia].
      apply H3 in E0. destruct E0 as [E0|E0]; [lia|contradiction].
  - intros buf. destruct (lawful_bulk_dequeue L buf HR) as (q1 & n & E & H1 & H2 & H3 & _).
    exists q1, n, (firstn n items ++ skipn n buf). split; [exact E|]. split; [exact H1|].
    split; [|split].
    + split.
      * intros Hn. split; intros ->; cbn in *; lia.
      * intros [Hb Hl]. destruct (Nat.eq_dec n 0) as [E0|]; [|lia].
        apply H3 in E0. destruct E0; contradiction.
    + rewrite firstn_app, firstn_firstn, Nat.min_id, firstn_length, Nat.min_l by lia.
      replace (n - n) with 0 by lia. cbn. apply app_nil_r.
    + rewrite skipn_app, firstn_length, Nat.min_l by lia.
      replace (n - n) with 0 by lia. rewrite skipn_all2; [reflexivity|]. rewrite firstn_length. lia.
Qed.

Theorem C03_fixed_exposure :
  forall (T : Type) (c : nat) (tmp : nat -> T) h q a,
    0 < c ->
    q_history (fixed_queue T) c (fixed_new_with_manual_tmps c tmp) q_empty h q a ->
    exposure_spec (fixed_queue T) c q (qa_items a).
Proof.
  intros T c tmp h q a Hc HH.
  refine (lawful_exposure_spec _ _ _ _ _ _ _ _ _ (fixed_lawful c) _).
  eapply (lawful_history (fixed_lawful c)); [|exact HH]. exact (fixed_new_R tmp Hc).
Qed.
Print Assumptions C03_fixed_exposure.

Theorem C03_static_exposure :
  forall (T : Type) (N : nat) (tmp : nat -> T) h q a,
    0 < N ->
    q_history (static_queue N) N (static_new_with_manual_tmps N tmp) q_empty h q a ->
    exposure_spec (static_queue N) N q (qa_items a).
Proof.
  intros T c tmp h q a Hc HH.
  refine (lawful_exposure_spec _ _ _ _ _ _ _ _ _ (static_lawful c) _).
  eapply (lawful_history (static_lawful c)); [|exact HH]. exact (static_new_R tmp Hc).
Qed.
Print Assumptions C03_static_exposure.

(** A reachable state in which the contents wrap around: only the part up to the
    end of the memory is exposed. *)
Example C03_example :
  q_history (fixed_queue nat) 3 (fixed_new 0 3) q_empty
    [(OpBulkEnqueue [1; 2; 3], ANat 3); (OpConsiderDequeued 2, AUnit); (OpEnqueue 4, AItem None)]
    (mk_fixed [4; 2; 3] 2 2) (mk_qabs [3; 4] 0 [])
  /\ q_expose_items (fixed_queue nat) (mk_fixed [4; 2; 3] 2 2) = Ret (mk_fixed [4; 2; 3] 2 2, Some [3])
  /\ q_expose_slots (fixed_queue nat) (mk_fixed [4; 2; 3] 2 2) = Ret (mk_fixed [4; 2; 3] 2 2, Some 1).
Proof.
  split; [|split; reflexivity].
  eapply q_history_step; [exact I|reflexivity| |].
  { cbn. repeat split; try lia. intros [?|?]; [lia|discriminate]. }
  eapply q_history_step; [|reflexivity|cbn; reflexivity|]; [cbn; lia|].
  eapply q_history_step; [exact I|reflexivity|cbn; split; [lia|reflexivity]|].
  apply q_history_nil.
Qed.

(** *** C04: marking is literally the same as repeated single calls: the resulting
    queue states are equal, hence so is all later behaviour. *)

Definition marking_spec {Q T} (I : queue Q T) (c : nat) (q : Q) (a : qabs T) : Prop :=
  (forall ys, length ys <= qa_slots a ->
     q_consider_enqueued I (length ys) (q_write I ys q) = q_enqueue_all I ys q) /\
  (forall n, n <= length (qa_items a) -> exists q',
     q_consider_dequeued I n q = Ret q' /\ q_dequeue_n I n q = Ret (q', firstn n (qa_items a))).

Theorem C04_fixed_marking :
  forall (T : Type) (c : nat) (tmp : nat -> T) h q a,
    0 < c ->
    q_history (fixed_queue T) c (fixed_new_with_manual_tmps c tmp) q_empty h q a ->
    marking_spec (fixed_queue T) c q a.
Proof.
  intros T c tmp h q a Hc HH.
  pose proof (lawful_history (fixed_lawful c) (a := q_empty) (fixed_new_R tmp Hc) HH) as HR.
  split.
  - intros ys Hys. exact (fixed_write_consider_eq ys HR Hys).
  - intros n Hn. exact (fixed_consider_dequeued_eq HR Hn).
Qed.
Print Assumptions C04_fixed_marking.

Theorem C04_static_marking :
  forall (T : Type) (N : nat) (tmp : nat -> T) h q a,
    0 < N ->
    q_history (static_queue N) N (static_new_with_manual_tmps N tmp) q_empty h q a ->
    marking_spec (static_queue N) N q a.
Proof.
  intros T c tmp h q a Hc HH.
  pose proof (lawful_history (static_lawful c) (a := q_empty) (static_new_R tmp Hc) HH) as HR.
  split.
  - intros ys Hys. exact (static_write_consider_eq ys HR Hys).
  - intros n Hn. exact (static_consider_dequeued_eq HR Hn).
Qed.
Print Assumptions C04_static_marking.

(** Splitting the marking over several calls is irrelevant. *)
Theorem C04_marking_splits :
  forall (T : Type) (c : nat) (tmp : nat -> T) h q a n m,
    0 < c ->
    q_history (fixed_queue T) c (fixed_new_with_manual_tmps c tmp) q_empty h q a ->
    (let* q1 := q_consider_enqueued (fixed_queue T) n q in q_consider_enqueued (fixed_queue T) m q1)
      = q_consider_enqueued (fixed_queue T) (n + m) q /\
    (n + m <= length (qa_items a) ->
     (let* q1 := q_consider_dequeued (fixed_queue T) n q in q_consider_dequeued (fixed_queue T) m q1)
      = q_consider_dequeued (fixed_queue T) (n + m) q).
Proof.
  intros T c tmp h q a n m Hc HH.
  pose proof (lawful_history (fixed_lawful c) (a := q_empty) (fixed_new_R tmp Hc) HH) as HR.
  split.
  - cbn. unfold fixed_consider_enqueued. cbn. now rewrite Nat.add_assoc.
  - intros Hnm. destruct (fixed_R_bounds HR) as (Hcap & Hr & Ha & _).
    pose proof HR as (_ & _ & _ & Ham & _).
    cbn. unfold fixed_consider_dequeued.
    rewrite Hcap, !ListFacts.cmod_ok by lia. cbn [bind]. rewrite !ListFacts.csub_ok by lia. cbn [bind fx_data fx_read fx_amount].
    unfold fixed_capacity in *. cbn [fx_data].
    rewrite Hcap, ListFacts.cmod_ok by lia. cbn [bind].
    rewrite ListFacts.csub_ok by lia. cbn [bind].
    rewrite Nat.add_mod_idemp_l by lia. do 2 f_equal; [f_equal; lia|lia].
Qed.
Print Assumptions C04_marking_splits.

Theorem C04_static_marking_splits :
  forall (T : Type) (N : nat) (tmp : nat -> T) h q a n m,
    0 < N ->
    q_history (static_queue N) N (static_new_with_manual_tmps N tmp) q_empty h q a ->
    (let* q1 := q_consider_enqueued (static_queue N) n q in q_consider_enqueued (static_queue N) m q1)
      = q_consider_enqueued (static_queue N) (n + m) q /\
    (n + m <= length (qa_items a) ->
     (let* q1 := q_consider_dequeued (static_queue N) n q in q_consider_dequeued (static_queue N) m q1)
      = q_consider_dequeued (static_queue N) (n + m) q).
Proof.
  intros T c tmp h q a n m Hc HH.
  destruct (lawful_history (static_lawful c) (a := q_empty) (static_new_R tmp Hc) HH) as [_ HR].
  split.
  - cbn. unfold static_consider_enqueued. cbn. now rewrite Nat.add_assoc.
  - intros Hnm. pose proof HR as (_ & _ & _ & Ham & _). cbn [fx_amount to_fixed] in Ham.
    cbn. unfold static_consider_dequeued.
    rewrite !ListFacts.cmod_ok by lia. cbn [bind]. rewrite !ListFacts.csub_ok by lia.
    cbn [bind st_data st_read st_amount].
    rewrite ListFacts.cmod_ok by lia. cbn [bind].
    rewrite ListFacts.csub_ok by lia. cbn [bind].
    rewrite Nat.add_mod_idemp_l by lia. do 2 f_equal; [f_equal; lia|lia].
Qed.
Print Assumptions C04_static_marking_splits.

Example C04_example :
  let q := mk_fixed [4; 2; 3] 1 2 in
  q_consider_enqueued (fixed_queue nat) 1 (q_write (fixed_queue nat) [7] q)
    = Ret (mk_fixed [7; 2; 3] 1 3)
  /\ q_enqueue_all (fixed_queue nat) [7] q = Ret (mk_fixed [7; 2; 3] 1 3)
  /\ q_dequeue_n (fixed_queue nat) 2 (mk_fixed [7; 2; 3] 1 3) = Ret (mk_fixed [7; 2; 3] 0 1, [2; 3]).
Proof. repeat split. Qed.

(** *** C05 *)

(** After any rule-respecting history, every call that respects the rules returns. *)
Theorem C05_no_panic :
  forall (T : Type) (c : nat) (tmp : nat -> T) h q a o,
    0 < c ->
    q_history (fixed_queue T) c (fixed_new_with_manual_tmps c tmp) q_empty h q a ->
    q_permitted a o ->
    exists q' r, q_do (fixed_queue T) o q = Ret (q', r).
Proof.
  intros T c tmp h q [items k w] o Hc HH HP.
  pose proof (lawful_history (fixed_lawful c) (a := q_empty) (fixed_new_R tmp Hc) HH) as HR.
  destruct (lawful_step (fixed_lawful c) q items k w o HR HP) as (q' & r & a' & E & _). now exists q', r.
Qed.
Print Assumptions C05_no_panic.

Theorem C05_static_no_panic :
  forall (T : Type) (c : nat) (tmp : nat -> T) h q a o,
    0 < c ->
    q_history (static_queue c) c (static_new_with_manual_tmps c tmp) q_empty h q a ->
    q_permitted a o ->
    exists q' r, q_do (static_queue c) o q = Ret (q', r).
Proof.
  intros T c tmp h q [items k w] o Hc HH HP.
  pose proof (lawful_history (static_lawful c) (a := q_empty) (static_new_R tmp Hc) HH) as HR.
  destruct (lawful_step (static_lawful c) q items k w o HR HP) as (q' & r & a' & E & _). now exists q', r.
Qed.
Print Assumptions C05_static_no_panic.

Theorem C05_index_bounds :
  forall (T : Type) (c : nat) (tmp : nat -> T) h q a,
    0 < c ->
    q_history (fixed_queue T) c (fixed_new_with_manual_tmps c tmp) q_empty h q a ->
    length (fx_data q) = c /\ fx_read q < c /\ fx_amount q <= c /\ fx_read q + fx_amount q < 2 * c.
Proof.
  intros T c tmp h q a Hc HH.
  exact (fixed_R_bounds (lawful_history (fixed_lawful c) (a := q_empty) (fixed_new_R tmp Hc) HH)).
Qed.
Print Assumptions C05_index_bounds.

Theorem C05_static_index_bounds :
  forall (T : Type) (c : nat) (tmp : nat -> T) h q a,
    0 < c ->
    q_history (static_queue c) c (static_new_with_manual_tmps c tmp) q_empty h q a ->
    length (st_data q) = c /\ st_read q < c /\ st_amount q <= c /\ st_read q + st_amount q < 2 * c.
Proof.
  intros T c tmp h q a Hc HH.
  destruct (lawful_history (static_lawful c) (a := q_empty) (static_new_R tmp Hc) HH) as [_ HR].
  exact (fixed_R_bounds HR).
Qed.
Print Assumptions C05_static_index_bounds.

(** Any property that all items passed in have (and the filler values need not
    have) is had by all items that come out. *)
Theorem C05_fillers_never_emitted :
  forall (T : Type) (c : nat) (tmp : nat -> T) (P : T -> Prop) h q a,
    q_history (fixed_queue T) c (fixed_new_with_manual_tmps c tmp) q_empty h q a ->
    Forall (fun p => Forall P (qop_inputs (fst p))) h ->
    Forall (fun p => Forall P (qans_outputs (snd p))) h.
Proof.
  intros T c tmp P h q a HH Hin.
  destruct (q_history_preserves (P := P) HH (Forall_nil _) (Forall_nil _) Hin). assumption.
Qed.
Print Assumptions C05_fillers_never_emitted.

Theorem C05_static_fillers_never_emitted :
  forall (T : Type) (c : nat) (tmp : nat -> T) (P : T -> Prop) h q a,
    q_history (static_queue c) c (static_new_with_manual_tmps c tmp) q_empty h q a ->
    Forall (fun p => Forall P (qop_inputs (fst p))) h ->
    Forall (fun p => Forall P (qans_outputs (snd p))) h.
Proof.
  intros T c tmp P h q a HH Hin.
  destruct (q_history_preserves (P := P) HH (Forall_nil _) (Forall_nil _) Hin). assumption.
Qed.
Print Assumptions C05_static_fillers_never_emitted.

Example C05_example : (* filler 0, only positive items go in *)
  q_history (fixed_queue nat) 2 (fixed_new 0 2) q_empty
    [(OpEnqueue 5, AItem None); (OpExposeItems, AItems (Some [5])); (OpDequeue, AItem (Some 5))]
    (mk_fixed [5; 0] 1 0) (mk_qabs [] 0 []).
Proof.
  eapply q_history_step; [exact I|reflexivity|cbn; split; [lia|reflexivity]|].
  eapply q_history_step; [exact I|reflexivity| |].
  { cbn. split; [discriminate|]. split; [now exists []|reflexivity]. }
  eapply q_history_step; [exact I|reflexivity|cbn; eexists; split; reflexivity|].
  apply q_history_nil.
Qed.

(** *** C06 *)

Theorem C06_zero_capacity_refuted :
  exists (ops : list (qop nat)),
    ~ q_conforms (fixed_queue nat) 0 ops (fixed_new 0 0) q_empty /\
    ~ q_conforms (static_queue 0) 0 ops (static_new 0 0) q_empty /\
    q_run (fixed_queue nat) ops (fixed_new 0 0) = Panic /\
    q_run (static_queue 0) ops (static_new 0 0) = Panic.
Proof.
  exists [OpConsiderDequeued 0]. repeat split.
  - intros H. inversion H as [|? ? ? ? HP|? ? ? ? ? ? ? HP HD]; subst; [apply HP; cbn; lia|discriminate].
  - intros H. inversion H as [|? ? ? ? HP|? ? ? ? ? ? ? HP HD]; subst; [apply HP; cbn; lia|discriminate].
Qed.
Print Assumptions C06_zero_capacity_refuted.

(** Every other call behaves. *)
Theorem C06_zero_capacity_otherwise_conforms :
  forall (T : Type) (tmp : nat -> T) (ops : list (qop T)),
    Forall (fun o => forall n, o <> OpConsiderDequeued n) ops ->
    q_conforms (fixed_queue T) 0 ops (fixed_new_with_manual_tmps 0 tmp) q_empty /\
    q_conforms (static_queue 0) 0 ops (static_new_with_manual_tmps 0 tmp) q_empty.
Proof.
  intros T tmp ops H.
  assert (H' : Forall not_consider_dequeued ops).
  { eapply Forall_impl; [|exact H]. intros [] Ho; cbn; auto. exact (Ho n eq_refl). }
  split; [exact (fixed_zero_conforms H')|exact (static_zero_conforms H')].
Qed.
Print Assumptions C06_zero_capacity_otherwise_conforms.

Example C06_example :
  q_run (fixed_queue nat) [OpEnqueue 1; OpDequeue; OpExposeSlots; OpBulkDequeue [8]] (fixed_new 0 0)
  = Ret (fixed_new 0 0, [AItem (Some 1); AItem None; ASlots None; ABuf [8] 0]).
Proof. reflexivity. Qed.

(** *** C07 *)

Theorem C07_fixed_debug :
  forall (T : Type) (c : nat) (tmp : nat -> T) h q a,
    0 < c ->
    q_history (fixed_queue T) c (fixed_new_with_manual_tmps c tmp) q_empty h q a ->
    fixed_debug q = Ret (c, length (qa_items a), qa_items a).
Proof.
  intros T c tmp h q a Hc HH.
  exact (fixed_debug_spec (lawful_history (fixed_lawful c) (a := q_empty) (fixed_new_R tmp Hc) HH)).
Qed.
Print Assumptions C07_fixed_debug.

Theorem C07_static_debug :
  forall (T : Type) (N : nat) (tmp : nat -> T) h q a,
    0 < N ->
    q_history (static_queue N) N (static_new_with_manual_tmps N tmp) q_empty h q a ->
    static_debug N q = Ret (length (qa_items a), qa_items a).
Proof.
  intros T c tmp h q a Hc HH.
  exact (static_debug_spec (lawful_history (static_lawful c) (a := q_empty) (static_new_R tmp Hc) HH)).
Qed.
Print Assumptions C07_static_debug.

Example C07_example : fixed_debug (mk_fixed [4; 2; 3] 2 2) = Ret (3, 2, [3; 4]).
Proof. reflexivity. Qed.

(** Properties C96 and C97: items of any type with any implementation of [Clone]. *)
From Coq Require Import Bool List Arith Lia.
From Verif Require Import Prelude QueueModel QueueSpec QueueProofs Traits Contracts ContractFacts BasicModel BasicSpec
  BasicProofs CloneModel CloneSpec CloneProofs PropQueues.
Import ListNotations.

(** A [Clone] for the examples: the world counts the calls, clones are marked by adding 100, and
    the item 13 cannot be cloned. *)
Definition ex_clone (x w : nat) : nat * option nat :=
  (w + 1, if x =? 13 then None else Some (x + 100)).

(** *** C96 *)

Theorem C96_fixed_with_any_clone :
  forall (W T : Type) (clone : T -> W -> W * option T) (c : nat) (tmp : nat -> T) (ops : list (qop T)) (w : W),
    0 < c ->
    u_conforms clone (fixed_queue T) (fixed_dequeue_cloning clone) c ops (fixed_new_with_manual_tmps c tmp) w q_empty.
Proof.
  intros W T clone c tmp ops w Hc.
  exact (@u_lawful_conforms _ _ _ clone _ _ _ _ (fixed_lawful c) (@fixed_deq_clones _ _ clone) ops _ _ _ _ w (fixed_new_R tmp Hc)).
Qed.
Print Assumptions C96_fixed_with_any_clone.

Theorem C96_static_with_any_clone :
  forall (W T : Type) (clone : T -> W -> W * option T) (N : nat) (tmp : nat -> T) (ops : list (qop T)) (w : W),
    0 < N ->
    u_conforms clone (static_queue N) (static_dequeue_cloning clone N) N ops (static_new_with_manual_tmps N tmp) w q_empty.
Proof.
  intros W T clone N tmp ops w HN.
  exact (@u_lawful_conforms _ _ _ clone _ _ _ _ (static_lawful N) (@static_deq_clones _ _ clone N) ops _ _ _ _ w (static_new_R tmp HN)).
Qed.
Print Assumptions C96_static_with_any_clone.

(** One call after the other, for the examples. *)
Fixpoint u_run {Q T W} (clone : T -> W -> W * option T) (I : queue Q T) deq (ops : list (qop T)) (q : Q) (w : W)
  : outcome (Q * W * list (uans T)) :=
  match ops with
  | [] => Ret (q, w, [])
  | o :: ops =>
      let* (q, w, r) := u_do clone I deq o q w in
      let* (q, w, rs) := u_run clone I deq ops q w in
      Ret (q, w, r :: rs)
  end.

(** A [bulk_enqueue] that panics at its second item leaves the queue as it was; a [bulk_dequeue]
    that panics has written one clone to the buffer, but takes nothing; a [dequeue] that
    panics loses the item 13. *)
Example C96_example :
  u_run ex_clone (fixed_queue nat) (fixed_dequeue_cloning ex_clone)
    [OpEnqueue 1; OpBulkEnqueue [2; 13]; OpEnqueue 13; OpEnqueue 3; OpBulkDequeue [0; 0; 0]; OpLen;
     OpDequeue; OpDequeue; OpDequeue; OpLen]
    (fixed_new 0 3) 0
  = Ret (mk_fixed [1; 13; 3] 0 0, 7,
         [UAns (AItem None); UUnwound; UAns (AItem None); UAns (AItem None); UUnwoundBuf [101; 0; 0]; UAns (ANat 3);
          UAns (AItem (Some 101)); UUnwound; UAns (AItem (Some 103)); UAns (ANat 0)]).
Proof. reflexivity. Qed.

Example C96_static_example :
  omap snd (u_run ex_clone (static_queue 2) (static_dequeue_cloning ex_clone 2)
    [OpBulkEnqueue [1; 2; 3]; OpDequeue; OpEnqueue 13; OpBulkDequeue [0; 0]; OpBulkDequeue [0; 0]; OpDequeue; OpIsEmpty]
    (static_new 2 0) 0)
  = Ret [UAns (ANat 2); UAns (AItem (Some 201)); UAns (AItem None); UAns (ABuf [202; 0] 1); UUnwoundBuf [0; 0];
         UUnwound; UAns (ABool true)].
Proof. reflexivity. Qed.

(** Whatever the calls and the panics: items that went in are still there, were taken out, or were
    lost by a [dequeue] whose clone panicked. *)
Theorem C96_only_a_panicking_dequeue_loses_an_item :
  forall (W T Q : Type) (clone : T -> W -> W * option T) (I : queue Q T) deq c q w h q' w' a',
    u_history clone I deq c q w q_empty h q' w' a' ->
    list_sum (map (@u_entered T) h) =
      length (qa_items a') + list_sum (map (@u_taken T) h) + list_sum (map (@u_lost T) h).
Proof. intros W T Q clone I deq c q w h q' w' a' H. exact (u_history_conserves H). Qed.
Print Assumptions C96_only_a_panicking_dequeue_loses_an_item.

(** A history of a [Fixed] in which one item is lost, one is taken and one remains. *)
Example C96_conservation_example :
  exists h q' w', u_history ex_clone (fixed_queue nat) (fixed_dequeue_cloning ex_clone) 3 (fixed_new 0 3) 0 q_empty h q' w'
      (mk_qabs [2] 0 []) /\
    list_sum (map (@u_entered nat) h) = 3 /\ list_sum (map (@u_taken nat) h) = 1 /\ list_sum (map (@u_lost nat) h) = 1.
Proof.
  exists [(OpEnqueue 13, UAns (AItem None)); (OpEnqueue 1, UAns (AItem None)); (OpEnqueue 2, UAns (AItem None));
          (OpDequeue, UUnwound); (OpDequeue, UAns (AItem (Some 101)))].
  do 2 eexists. split; [|repeat split].
  eapply u_history_step; [exact Logic.I|reflexivity|cbn; repeat split; lia|].
  eapply u_history_step; [exact Logic.I|reflexivity|cbn; repeat split; lia|].
  eapply u_history_step; [exact Logic.I|reflexivity|cbn; repeat split; lia|].
  eapply u_history_step; [exact Logic.I|reflexivity|cbn; do 2 eexists; repeat split|].
  eapply u_history_step; [exact Logic.I|reflexivity|cbn; do 2 eexists; repeat split|].
  constructor.
Qed.

(** With the [Clone] that the rest of the model assumes, every call is the one of the plain model. *)
Theorem C96_plain_clone_is_the_plain_model :
  forall (T : Type) (N : nat) (o : qop T),
    (forall q, u_do plain_clone (fixed_queue T) (fixed_dequeue_cloning plain_clone) o q tt =
       let* (q', r) := q_do (fixed_queue T) o q in Ret (q', tt, UAns r)) /\
    (forall q, u_do plain_clone (static_queue N) (static_dequeue_cloning plain_clone N) o q tt =
       let* (q', r) := q_do (static_queue N) o q in Ret (q', tt, UAns r)).
Proof.
  intros T N o. split; intros q.
  - exact (u_do_plain (@fixed_deq_clones _ _ plain_clone) o q).
  - exact (u_do_plain (@static_deq_clones _ _ plain_clone N) o q).
Qed.
Print Assumptions C96_plain_clone_is_the_plain_model.

(** *** C97 *)

(** [consume_full_slice] clones the items one by one, each right before it is consumed: nothing is
    cloned beyond the item that is refused, and a panic loses nothing. *)
Theorem C97_consume_full_slice_clones_as_it_goes :
  forall (W T A F E S : Type) (clone : T -> W -> W * option T) (M : machine A T F E) (C : bulk_consumer S T F E) R D,
    lawful_consumer_core C M R D ->
    forall buf s a k v w, R s a k v ->
    exists s',
      match clone_feed clone M buf a w with
      | (a', w', _, AllTaken) =>
          consume_full_slice_cloning clone C buf s w = Ret (s', w', Done (Ok tt)) /\ R s' a' 0 []
      | (a', w', n, Refused e) =>
          consume_full_slice_cloning clone C buf s w = Ret (s', w', Done (Err (mk_cale n e))) /\ D s' a'
      | (a', w', _, Panicked) =>
          consume_full_slice_cloning clone C buf s w = Ret (s', w', Unwound) /\ R s' a' 0 []
      end.
Proof.
  intros W T A F E S clone M C R D L buf s a k v w HR.
  destruct (@consume_full_slice_cloning_from_exact _ _ _ _ _ clone _ _ _ _ _ L buf 0 _ _ _ _ w HR) as (s' & E1 & H). exists s'.
  unfold consume_full_slice_cloning. rewrite E1.
  destruct (clone_feed clone M buf a w) as [[[a' w'] n] [|e|]]; auto.
Qed.
Print Assumptions C97_consume_full_slice_clones_as_it_goes.

(** [bulk_consume] and [bulk_consume_full_slice]: each item is cloned at most once and in order. If a
    clone panics, the consumer has accepted the clones of a prefix and can be used again. *)
Theorem C97_bulk_consume_clones_once :
  forall (W T A F E S : Type) (clone : T -> W -> W * option T) (M : machine A T F E) (C : bulk_consumer S T F E) R D,
    lawful_consumer_core C M R D ->
    forall s a k v buf w, R s a k v -> buf <> [] ->
    (exists s' w' n a', bulk_consume_cloning clone C buf s w = Ret (s', w', Done (Ok n)) /\
       1 <= n <= length buf /\ took clone M (firstn n buf) a w a' w' /\ R s' a' 0 []) \/
    (exists s' w' i e a', bulk_consume_cloning clone C buf s w = Ret (s', w', Done (Err e)) /\
       refused clone M buf a w i e a' w' /\ D s' a') \/
    (exists s' w', bulk_consume_cloning clone C buf s w = Ret (s', w', Unwound) /\
       broke clone M buf a w 0 a w' /\ R s' a 0 []).
Proof.
  intros W T A F E S clone M C R D L s a k v buf w HR Hb.
  exact (@bulk_consume_cloning_lawful _ _ _ _ _ clone _ _ _ _ _ L _ _ _ _ _ w HR Hb).
Qed.
Print Assumptions C97_bulk_consume_clones_once.

Theorem C97_bulk_consume_full_slice_clones_once :
  forall (W T A F E S : Type) (clone : T -> W -> W * option T) (M : machine A T F E) (C : bulk_consumer S T F E) R D,
    lawful_consumer_core C M R D ->
    forall fuel buf s a k v w, R s a k v -> length buf < fuel ->
    (exists s' w' a', bulk_consume_full_slice_cloning clone fuel C buf s w = Ret (s', w', Done (Ok tt)) /\
       took clone M buf a w a' w' /\ R s' a' 0 []) \/
    (exists s' w' m i e a', bulk_consume_full_slice_cloning clone fuel C buf s w
         = Ret (s', w', Done (Err (mk_cale m e))) /\
       m <= i /\ refused clone M buf a w i e a' w' /\ D s' a') \/
    (exists s' w' j a', bulk_consume_full_slice_cloning clone fuel C buf s w = Ret (s', w', Unwound) /\
       broke clone M buf a w j a' w' /\ R s' a' 0 []).
Proof.
  intros W T A F E S clone M C R D L fuel buf s a k v w HR Hf.
  exact (@bulk_consume_full_slice_cloning_loop_lawful _ _ _ _ _ clone _ _ _ _ _ L fuel buf 0 s a k v w HR
    (Nat.le_0_l _) ltac:(lia)).
Qed.
Print Assumptions C97_bulk_consume_full_slice_clones_once.

(** The three cases exclude each other: without a panic or a refusal, the result and the world are
    determined. *)
Theorem C97_cases_exclude_each_other :
  forall (W T A F E : Type) (clone : T -> W -> W * option T) (M : machine A T F E) xs a w a1 w1,
    took clone M xs a w a1 w1 ->
    (forall a2 w2, took clone M xs a w a2 w2 -> a2 = a1 /\ w2 = w1) /\
    (forall i e a2 w2, ~ refused clone M xs a w i e a2 w2) /\
    (forall j a2 w2, ~ broke clone M xs a w j a2 w2).
Proof.
  intros W T A F E clone M xs a w a1 w1 H. split; [|split].
  - intros a2 w2 H2. exact (took_det H H2).
  - intros i e a2 w2. exact (took_not_refused H).
  - intros j a2 w2. exact (took_not_broke H).
Qed.
Print Assumptions C97_cases_exclude_each_other.

(** Into a vector: five items in several rounds; and with a panic in the third round, at which
    the clones of the first three items have been accepted and that of the fourth is lost. *)
Example C97_into_vec_example :
  (let* (s, w, r) := bulk_consume_full_slice_cloning ex_clone 6 (into_vec_consumer 0) [1; 2; 3; 4; 5] into_vec_new 0 in
    Ret (into_vec_into_vec s, w, r)) = Ret ([101; 102; 103; 104; 105], 5, Done (Ok tt)).
Proof. reflexivity. Qed.

Example C97_into_vec_panic_example :
  (let* (s, w, r) := bulk_consume_full_slice_cloning ex_clone 6 (into_vec_consumer 0) [1; 2; 3; 4; 13] into_vec_new 0 in
     Ret (into_vec_into_vec s, w, r)) = Ret ([101; 102; 103], 5, Unwound) /\
  (let* (s, w, r) := consume_full_slice_cloning ex_clone (into_vec_consumer 0) [1; 2; 3; 4; 13] into_vec_new 0 in
     Ret (into_vec_into_vec s, w, r)) = Ret ([101; 102; 103; 104], 5, Unwound).
Proof. split; reflexivity. Qed.

(** A [produce] of a slice producer whose clone panics leaves the producer as it was. *)
Theorem C97_from_slice_keeps_the_item :
  forall (W T : Type) (clone : T -> W -> W * option T) (l : list T) off w,
    off <= length l ->
    match nth_error l off with
    | None => from_slice_produce_cloning clone (mk_from_slice l off) w = Ret (mk_from_slice l off, w, Done (Ok (inr tt)))
    | Some x =>
        match clone x w with
        | (w', Some y) => from_slice_produce_cloning clone (mk_from_slice l off) w =
            Ret (mk_from_slice l (off + 1), w', Done (Ok (inl y)))
        | (w', None) => from_slice_produce_cloning clone (mk_from_slice l off) w = Ret (mk_from_slice l off, w', Unwound)
        end
    end.
Proof.
  intros W T clone l off w Ho. unfold from_slice_produce_cloning, index. cbn [fs_slice fs_offset].
  destruct (nth_error l off) as [x|] eqn:Ex.
  - destruct (Nat.eqb_spec (length l) off) as [E|E].
    + assert (nth_error l off = None) by (apply nth_error_None; lia). congruence.
    + cbn [bind]. destruct (clone x w) as [w' [y|]]; reflexivity.
  - apply nth_error_None in Ex. destruct (Nat.eqb_spec (length l) off); [reflexivity|lia].
Qed.
Print Assumptions C97_from_slice_keeps_the_item.

(** [bulk_overwrite_full_slice] on any lawful producer: the buffer receives one clone of each item. After
    a panic the buffer starts with the clones that were made, and the producer continues
    with an item that was cloned last or before. *)
Theorem C97_bulk_overwrite_full_slice_clones_once :
  forall (W T F E S : Type) (clone : T -> W -> W * option T) (P : bulk_producer S T F E) R D,
    lawful_producer_core P R D ->
    forall fuel buf s xs l k w, R s xs l k -> length buf < fuel ->
    (length buf <= length xs /\ exists s' w' ys,
       bulk_overwrite_full_slice_cloning clone fuel P buf s w = Ret (s', w', (ys, Done (Ok tt))) /\
       clones clone (firstn (length buf) xs) w ys w' /\ R s' (skipn (length buf) xs) l 0) \/
    (length xs < length buf /\ exists s' w' ys,
       bulk_overwrite_full_slice_cloning clone fuel P buf s w =
         Ret (s', w', (ys ++ skipn (length ys) buf,
           Done (Err (mk_pale (length xs) (match l with Ok f => inl f | Err e => inr e end))))) /\
       clones clone xs w ys w' /\ D s') \/
    (exists s' w' ys j,
       bulk_overwrite_full_slice_cloning clone fuel P buf s w = Ret (s', w', (ys ++ skipn (length ys) buf, Unwound)) /\
       breaks clone (firstn (length buf) xs) w ys w' /\ j <= length ys /\ R s' (skipn j xs) l 0).
Proof.
  intros W T F E S clone P R D L fuel buf s xs l k w HR Hf.
  pose proof (@bulk_overwrite_full_slice_cloning_loop_lawful _ _ _ _ _ clone _ _ _ L fuel buf 0 s xs l k w HR
    (Nat.le_0_l _) ltac:(lia)) as H.
  cbn zeta in H. rewrite Nat.sub_0_r in H. cbn [firstn skipn app Nat.add] in H. exact H.
Qed.
Print Assumptions C97_bulk_overwrite_full_slice_clones_once.

Example C97_bulk_overwrite_example :
  bulk_overwrite_full_slice_cloning ex_clone 4 (@from_slice_producer nat) [0; 0; 0] (from_slice_new [1; 2; 3; 13]) 0 =
    Ret (mk_from_slice [1; 2; 3; 13] 3, 3, ([101; 102; 103], Done (Ok tt))) /\
  bulk_overwrite_full_slice_cloning ex_clone 5 (@from_slice_producer nat) [0; 0; 0; 0] (from_slice_new [1; 2; 13]) 0 =
    Ret (mk_from_slice [1; 2; 13] 0, 3, ([101; 102; 0; 0], Unwound)) /\
  bulk_overwrite_full_slice_cloning ex_clone 4 (@from_slice_producer nat) [0; 0; 0] (from_slice_new [1; 2]) 0 =
    Ret (mk_from_slice [1; 2] 2, 2, ([101; 102; 0], Done (Err (mk_pale 2 (inl tt))))).
Proof. repeat split. Qed.

(** [pipe] from a slice clones each item once, when it is produced, and nothing else. *)
Theorem C97_pipe_clones_as_it_goes :
  forall (W T A E SC : Type) (clone : T -> W -> W * option T) (M : machine A T unit E)
      (C : bulk_consumer SC T unit E) R D,
    lawful_consumer_core C M R D ->
    forall fuel l sc a k v w, R sc a k v -> length l < fuel ->
    exists sc',
      match clone_feed clone M l a w with
      | (a', w', _, AllTaken) =>
          pipe_cloning fuel (from_slice_produce_cloning clone) C (from_slice_new l) sc w =
            Ret (mk_from_slice l (length l), sc', w', Done (map_err PipeConsumer (snd (m_finish M tt a')))) /\
          D sc' (fst (m_finish M tt a'))
      | (a', w', n, Refused e) =>
          pipe_cloning fuel (from_slice_produce_cloning clone) C (from_slice_new l) sc w =
            Ret (mk_from_slice l (n + 1), sc', w', Done (Err (PipeConsumer e))) /\ D sc' a'
      | (a', w', n, Panicked) =>
          pipe_cloning fuel (from_slice_produce_cloning clone) C (from_slice_new l) sc w =
            Ret (mk_from_slice l n, sc', w', Unwound) /\ R sc' a' 0 []
      end.
Proof.
  intros W T A E SC clone M C R D L fuel l sc a k v w HR Hf.
  destruct (@pipe_cloning_from_slice _ _ _ _ _ clone M C R D C eq_refl L fuel l 0 sc a k v w HR (Nat.le_0_l _) ltac:(lia))
    as (sc' & E1 & H). exists sc'. cbn [skipn] in *. unfold from_slice_new. rewrite E1.
  destruct (clone_feed clone M l a w) as [[[a' w'] n] [|e|]]; auto.
Qed.
Print Assumptions C97_pipe_clones_as_it_goes.

(** [bulk_pipe] between any lawful producer and consumer clones each item at most once. After a panic
    the producer still has exactly the items whose clones the consumer has not accepted, so
    that the pipe can be taken up again without losing or repeating an item. *)
Theorem C97_bulk_pipe_clones_once :
  forall (W T A F PE CE SP SC : Type) (clone : T -> W -> W * option T) (M : machine A T F CE)
      (P : bulk_producer SP T F PE) RP DP (C : bulk_consumer SC T F CE) R D,
    lawful_producer_core P RP DP -> lawful_consumer_core C M R D ->
    forall fuel xs l kp sp sc a k v w, RP sp xs l kp -> R sc a k v -> length xs < fuel ->
    (exists sp' sc' w' a', took clone M xs a w a' w' /\ DP sp' /\
       match l with
       | Ok f => bulk_pipe_cloning clone fuel P C sp sc w =
                   Ret (sp', sc', w', Done (map_err PipeConsumer (snd (m_finish M f a')))) /\
                 D sc' (fst (m_finish M f a'))
       | Err e => bulk_pipe_cloning clone fuel P C sp sc w = Ret (sp', sc', w', Done (Err (PipeProducer e))) /\
                 R sc' a' 0 []
       end) \/
    (exists sp' sc' w' i j e a', bulk_pipe_cloning clone fuel P C sp sc w =
         Ret (sp', sc', w', Done (Err (PipeConsumer e))) /\
       refused clone M xs a w i e a' w' /\ j <= i /\ RP sp' (skipn j xs) l 0 /\ D sc' a') \/
    (exists sp' sc' w' j a', bulk_pipe_cloning clone fuel P C sp sc w = Ret (sp', sc', w', Unwound) /\
       broke clone M xs a w j a' w' /\ RP sp' (skipn j xs) l 0 /\ R sc' a' 0 []).
Proof.
  intros W T A F PE CE SP SC clone M P RP DP C R D LP L fuel xs l kp sp sc a k v w HRP HR Hf.
  exact (@bulk_pipe_cloning_lawful _ _ _ _ _ _ _ _ clone M P RP DP C R D LP L fuel xs l kp sp sc a k v w HRP HR Hf).
Qed.
Print Assumptions C97_bulk_pipe_clones_once.

(** Items of a slice that can all be cloned and are all accepted: both pipes make the same clones in the same order,
    give the same answer and leave consumers of the same state. *)
Theorem C97_pipes_clone_alike :
  forall (W T A E SC : Type) (clone : T -> W -> W * option T) (M : machine A T unit E)
      (C : bulk_consumer SC T unit E) R D,
    lawful_consumer_core C M R D ->
    forall fuel l sc a k v w a' w' n, R sc a k v -> length l < fuel ->
    clone_feed clone M l a w = (a', w', n, AllTaken) ->
    exists sp1 sc1 sp2 sc2,
      pipe_cloning fuel (from_slice_produce_cloning clone) C (from_slice_new l) sc w =
        Ret (sp1, sc1, w', Done (map_err PipeConsumer (snd (m_finish M tt a')))) /\
      bulk_pipe_cloning clone fuel (@from_slice_producer T) C (from_slice_new l) sc w =
        Ret (sp2, sc2, w', Done (map_err PipeConsumer (snd (m_finish M tt a')))) /\
      D sc1 (fst (m_finish M tt a')) /\ D sc2 (fst (m_finish M tt a')).
Proof.
  intros W T A E SC clone M C R D L fuel l sc a k v w a' w' n HR Hf HC.
  destruct (C97_pipe_clones_as_it_goes W T A E SC clone M C R D L fuel l sc a k v w HR Hf) as (sc1 & H1).
  rewrite HC in H1. destruct H1 as (E1 & HD1).
  destruct (clone_feed_took _ _ _ _ _ HC) as (_ & HT).
  destruct (C97_bulk_pipe_clones_once W T A unit infallible E _ SC clone M (@from_slice_producer T) fs_rel fs_end C R D
    from_slice_core L fuel l (Ok tt) 0 (from_slice_new l) sc a k v w (fs_rel_new l) HR Hf) as
    [(sp2 & sc2 & w2 & a2 & HT2 & _ & E2 & HD2)|[(sp2 & sc2 & w2 & i & j & e & a2 & _ & HX & _)|(sp2 & sc2 & w2 & j & a2 & _ & HX & _)]].
  - destruct (took_det HT HT2) as [-> ->]. do 4 eexists. split; [exact E1|]. split; [exact E2|]. auto.
  - destruct (took_not_refused HT HX).
  - destruct (took_not_broke HT HX).
Qed.
Print Assumptions C97_pipes_clone_alike.

(** From a slice into a vector, one clone per item either way; with an item that cannot be cloned, both pipes
    stop with the vector and the rest of the slice in step. *)
Example C97_pipes_example :
  clone_feed ex_clone (collect_machine nat unit infallible) [1; 2; 3] [] 0 = ([101; 102; 103], 3, 3, AllTaken) /\
  (let* (sp, sc, w, r) := pipe_cloning 4 (from_slice_produce_cloning ex_clone) (into_vec_consumer 0)
     (from_slice_new [1; 2; 3]) into_vec_new 0 in Ret (fs_offset sp, into_vec_into_vec sc, w, r)) =
    Ret (3, [101; 102; 103], 3, Done (Ok tt)) /\
  (let* (sp, sc, w, r) := bulk_pipe_cloning ex_clone 4 (@from_slice_producer nat) (into_vec_consumer 0)
     (from_slice_new [1; 2; 3]) into_vec_new 0 in Ret (fs_offset sp, into_vec_into_vec sc, w, r)) =
    Ret (3, [101; 102; 103], 3, Done (Ok tt)) /\
  (let* (sp, sc, w, r) := pipe_cloning 6 (from_slice_produce_cloning ex_clone) (into_vec_consumer 0)
     (from_slice_new [1; 2; 3; 4; 13]) into_vec_new 0 in Ret (fs_offset sp, into_vec_into_vec sc, w, r)) =
    Ret (4, [101; 102; 103; 104], 5, Unwound) /\
  (let* (sp, sc, w, r) := bulk_pipe_cloning ex_clone 6 (@from_slice_producer nat) (into_vec_consumer 0)
     (from_slice_new [1; 2; 3; 4; 13]) into_vec_new 0 in Ret (fs_offset sp, into_vec_into_vec sc, w, r)) =
    Ret (3, [101; 102; 103], 5, Unwound).
Proof. repeat split. Qed.

(** With the [Clone] that the rest of the model assumes, the code is that of the plain model. *)
Theorem C97_plain_clone_is_the_plain_model :
  forall (T F E S : Type),
    (forall s : from_slice T, from_slice_produce_cloning plain_clone s tt =
       let* (s', r) := from_slice_produce s in Ret (s', tt, Done r)) /\
    (forall (C : consumer S T F E) buf s, consume_full_slice_cloning plain_clone C buf s tt =
       let* (s', r) := consume_full_slice C buf s in Ret (s', tt, Done r)) /\
    (forall (C : bulk_consumer S T F E),
       c_bulk_consume C = default_bulk_consume (c_expose C) (c_write C) (c_consume_slots C) -> forall fuel buf s,
       bulk_consume_cloning plain_clone C buf s tt =
         (let* (s', r) := c_bulk_consume C buf s in Ret (s', tt, Done r)) /\
       bulk_consume_full_slice_cloning plain_clone fuel C buf s tt =
         (let* (s', r) := bulk_consume_full_slice fuel C buf s in Ret (s', tt, Done r))) /\
    (forall (P : bulk_producer S T F E),
       p_bulk_produce P = default_bulk_produce (p_expose P) (p_consider P) -> forall fuel buf s,
       bulk_produce_cloning plain_clone P buf s tt =
         (let* (s', (buf', r)) := p_bulk_produce P buf s in Ret (s', tt, (buf', Done r))) /\
       bulk_overwrite_full_slice_cloning plain_clone fuel P buf s tt =
         (let* (s', (buf', r)) := bulk_overwrite_full_slice fuel P buf s in Ret (s', tt, (buf', Done r)))).
Proof.
  intros T F E S. split; [|split; [|split]].
  - exact (@from_slice_produce_plain T).
  - intros C buf s. exact (consume_full_slice_plain C buf 0 s).
  - intros C HC fuel buf s. split; [|exact (bulk_consume_full_slice_plain C HC fuel 0 buf s)].
    rewrite HC. exact (bulk_consume_plain C buf s).
  - intros P HP fuel buf s. split; [|exact (bulk_overwrite_full_slice_plain P HP fuel 0 buf s)].
    rewrite HP. exact (bulk_produce_plain P buf s).
Qed.
Print Assumptions C97_plain_clone_is_the_plain_model.

Theorem C97_plain_pipes_are_the_plain_model :
  forall (T F PE CE SP SC : Type) fuel,
    (forall (C : consumer SC T unit CE) (sp : from_slice T) sc,
       pipe_cloning fuel (from_slice_produce_cloning plain_clone) C sp sc tt =
         let* (sp', sc', r) := pipe fuel (@from_slice_producer T) C sp sc in Ret (sp', sc', tt, Done r)) /\
    (forall (P : bulk_producer SP T F PE) (C : bulk_consumer SC T F CE),
       c_bulk_consume C = default_bulk_consume (c_expose C) (c_write C) (c_consume_slots C) -> forall sp sc,
       bulk_pipe_cloning plain_clone fuel P C sp sc tt =
         let* (sp', sc', r) := bulk_pipe fuel P C sp sc in Ret (sp', sc', tt, Done r)).
Proof.
  intros T F PE CE SP SC fuel. split.
  - intros C sp sc. exact (pipe_plain C fuel sp sc).
  - intros P C HC sp sc. exact (bulk_pipe_plain P C HC fuel sp sc).
Qed.
Print Assumptions C97_plain_pipes_are_the_plain_model.

(** Property C111: the consumers that collect items, for any implementation of [Default]. *)
From Coq Require Import Bool List Arith Lia.
From Verif Require Import Prelude Traits Contracts ContractFacts BasicModel BasicSpec BasicProofs AdaptorModel AdaptorSpec AdaptorProofs
  CloneModel CloneSpec ClosureModel ClosureSpec CloneScramblerSpec CloneSinkSpec DefaultModel DefaultSpec DefaultProofs.
Import ListNotations.

(** *** C111 *)

(** Any calls to an IntoVec within the rules, with panics of [default] and [clone] caught at each of them, and whatever a vector does
    with the values it had been given when [default] panics. *)
Theorem C111_into_vec_with_any_default :
  forall (W T : Type) (default : W -> W * option T) (keep : nat -> nat) (clone : T -> W -> W * option T) (v : list T) (calls : list (cop T unit)) (w : W),
  d_conforms default clone (collect_machine T unit infallible) (fun a => a) (into_vec_u default keep) calls (into_vec_from_vec v) w (CActive v 0 []).
Proof.
  intros W T default keep clone v calls w.
  exact (@takes_conforms W _ _ T _ _ default _ _ _ _ _ (@into_vec_takes W T default keep) clone calls (into_vec_from_vec v) w (CActive v 0 []) (@iv_rel_from_vec T v)).
Qed.
Print Assumptions C111_into_vec_with_any_default.

(** Likewise for a test consumer, whatever it was built from. *)
Theorem C111_test_consumer_with_any_default :
  forall (W T F E : Type) (default : W -> W * option T) (keep : nat -> nat) (clone : T -> W -> W * option T) (error : E) (n : nat) sizes pattern
    (calls : list (cop T F)) (w : W),
  (match sizes with Some l => Forall (fun n => 1 <= n) l | None => True end) ->
  d_conforms default clone (failing_machine T F error) (fun a => a) (@test_consumer_u W T default keep F E) calls
    (test_consumer_build error n sizes pattern) w (CActive (mk_tstate [] None n false) 0 []).
Proof.
  intros W T F E default keep clone error n sizes pattern calls w Hs.
  exact (@takes_conforms W _ _ T F E default _ _ _ _ _ (@test_consumer_takes W T default keep F E error) clone calls
    (test_consumer_build error n sizes pattern) w (CActive (mk_tstate [] None n false) 0 []) (@tc_rel_build T F E error n sizes pattern Hs)).
Qed.
Print Assumptions C111_test_consumer_with_any_default.

(** Invariant and Limit around a consumer of this kind are of this kind; but a [consume] of a Limit that panics counts. *)
Theorem C111_adaptors_keep_to_it :
  forall (W S A T F E : Type) (default : W -> W * option T) (U : u_consumer W S T F E) (M : machine A T F E) dent R D,
  takes default U M dent R D ->
  takes default (invariant_u U) M dent (@invc_rel S T A R) (@invc_end S A D) /\
  takes default (limit_u U) (limit_machine M) (fun na => (fst na - 1, dent (snd na))) (@limc_rel S A T R) (@limc_end S A T R D) /\
  forall s a k v n, R s a k v -> invc_rel R (invariant_new s) a 0 [] /\ @limc_rel S A T R (limit_new s n) (n, a) 0 [].
Proof.
  intros W S A T F E default U M dent R D L. split; [exact (invariant_takes L)|]. split; [exact (limit_takes L)|].
  intros s a k v n HR. apply (tk_forget L) in HR. split.
  - split; [exact HR|]. split; [reflexivity|cbn; lia].
  - split; [reflexivity|]. split; [cbn; lia|]. exists 0. split; [exact HR|lia].
Qed.
Print Assumptions C111_adaptors_keep_to_it.

(** And all such consumers answer any calls within the rules as specified. *)
Theorem C111_any_such_consumer :
  forall (W S A T F E : Type) (default : W -> W * option T) (clone : T -> W -> W * option T) (U : u_consumer W S T F E) (M : machine A T F E) dent R D s a k v
    (calls : list (cop T F)) (w : W),
  takes default U M dent R D -> R s a k v -> d_conforms default clone M dent U calls s w (CActive a k v).
Proof. intros W S A T F E default clone U M dent R D s a k v calls w L HR. exact (@takes_conforms W S A T F E default U M dent R D L clone calls s w (CActive a k v) HR). Qed.
Print Assumptions C111_any_such_consumer.

(** What a vector holds in the end: what was in it, and after that, in order, the items handed over in the calls that succeeded (as they are, or
    as one clone of each); none of the values that [default] made. *)
Theorem C111_vector_holds_what_was_given :
  forall (W T : Type) (default : W -> W * option T) (keep : nat -> nat) (clone : T -> W -> W * option T) (v : list T) (calls : list (cop T unit)) (w : W),
  exists h s' w' b',
    d_history default clone (collect_machine T unit infallible) (fun a => a) (into_vec_u default keep) (into_vec_from_vec v) w (CActive v 0 []) h s' w' b' /\
    (calls = map fst h \/ exists o calls', calls = map fst h ++ o :: calls' /\ ~ c_permitted b' o) /\
    exists out, Forall2 (descends clone) (t_given [] h) out /\ into_vec_as_ref s' = Ret (v ++ out) /\ into_vec_into_vec s' = v ++ out.
Proof.
  intros W T default keep clone v calls w.
  destruct (@takes_history W _ _ T _ _ default _ _ _ _ _ (@into_vec_takes W T default keep) clone calls (into_vec_from_vec v) w (CActive v 0 []) (@iv_rel_from_vec T v))
    as (h & s' & w' & b' & Hh & HR & Hc).
  exists h, s', w', b'. split; [exact Hh|]. split; [exact Hc|].
  destruct (@d_logged W _ _ T _ _ default _ _ _ clone _ (@collect_logs T unit infallible) _ _ _ _ _ _ _ Hh) as (out & Hl & Ho).
  exists out. split; [exact Ho|]. cbn [abs_state] in Hl. rewrite <- Hl. destruct b' as [a k x|a]; exact (@iv_rel_read T s' _ _ _ HR).
Qed.
Print Assumptions C111_vector_holds_what_was_given.

(** Likewise what a test consumer says that it consumed. *)
Theorem C111_test_consumer_holds_what_was_given :
  forall (W T F E : Type) (default : W -> W * option T) (keep : nat -> nat) (clone : T -> W -> W * option T) (error : E) (n : nat) sizes pattern
    (calls : list (cop T F)) (w : W),
  (match sizes with Some l => Forall (fun n => 1 <= n) l | None => True end) ->
  exists h s' w' b',
    d_history default clone (failing_machine T F error) (fun a => a) (@test_consumer_u W T default keep F E)
      (test_consumer_build error n sizes pattern) w (CActive (mk_tstate [] None n false) 0 []) h s' w' b' /\
    (calls = map fst h \/ exists o calls', calls = map fst h ++ o :: calls' /\ ~ c_permitted b' o) /\
    exists out, Forall2 (descends clone) (t_given [] h) out /\ test_consumer_consumed s' = Ret out.
Proof.
  intros W T F E default keep clone error n sizes pattern calls w Hs.
  destruct (@takes_history W _ _ T F E default _ _ _ _ _ (@test_consumer_takes W T default keep F E error) clone calls
    (test_consumer_build error n sizes pattern) w (CActive (mk_tstate [] None n false) 0 []) (@tc_rel_build T F E error n sizes pattern Hs))
    as (h & s' & w' & b' & Hh & HR & Hc).
  exists h, s', w', b'. split; [exact Hh|]. split; [exact Hc|].
  destruct (@d_logged W _ _ T F E default _ _ _ clone _ (@failing_logs T F E error) _ _ _ _ _ _ _ Hh) as (out & Hl & Ho).
  exists out. split; [exact Ho|]. cbn in Hl. subst out. unfold test_consumer_consumed.
  destruct b' as [a k x|a]; cbn [abs_state]; destruct HR as [HR _]; exact (proj1 (@iv_rel_read T _ _ _ _ HR)).
Qed.
Print Assumptions C111_test_consumer_holds_what_was_given.

(** Limits count panics: items handed over, calls of [consume] cut short, and what is left of the limit add up to the limit. *)
Theorem C111_limit_counts_panics :
  forall (W S A T F E : Type) (default : W -> W * option T) (clone : T -> W -> W * option T) (U : u_consumer W S T F E) (M : machine A T F E) dent R D s a k v
    (n : nat) (calls : list (cop T F)) (w : W),
  takes default U M dent R D -> R s a k v ->
  exists h s' w' b',
    d_history default clone (limit_machine M) (fun na => (fst na - 1, dent (snd na))) (limit_u U) (limit_new s n) w (CActive (n, a) 0 []) h s' w' b' /\
    (calls = map fst h \/ exists o calls', calls = map fst h ++ o :: calls' /\ ~ c_permitted b' o) /\
    match b' with
    | CActive _ _ _ => lim_remaining s' + length (t_given [] h) + d_torn h = n
    | CEnded _ => True
    end.
Proof.
  intros W S A T F E default clone U M dent R D s a k v n calls w L HR.
  destruct (C111_adaptors_keep_to_it W S A T F E default U M dent R D L) as (_ & LL & Hnew).
  destruct (@takes_history W _ _ T F _ default _ _ _ _ _ LL clone calls (limit_new s n) w (CActive (n, a) 0 []) (proj2 (Hnew s a k v n HR)))
    as (h & s' & w' & b' & Hh & _ & Hc).
  exists h, s', w', b'. split; [exact Hh|]. split; [exact Hc|]. destruct b' as [a' k' v'|]; [|exact I].
  exact (@limit_counts W S _ T F E default U _ _ clone h _ w _ s' w' _ Hh I).
Qed.
Print Assumptions C111_limit_counts_panics.

(** A pipe into such a consumer, called again after each panic: an item whose [consume] panics is lost, since [pipe] had moved it out of the
    producer and into the call. *)
Theorem C111_pipe_again :
  forall (W T A F PE CE SP SC : Type) (default : W -> W * option T) (P : bulk_producer SP T F PE) RP DP, lawful_producer_core P RP DP ->
  forall (U : u_consumer W SC T F CE) (M : machine A T F CE) dent RC DC, takes default U M dent RC DC ->
  forall attempts xs fuel sp sc w l k a kc v, RP sp xs l k -> RC sc a kc v -> length xs < fuel -> length xs < attempts ->
  exists sp' sc' w' r kept lost a' stop,
    pipe_again (calm_produce P) (u_consume U) (calm_close (u_calm U)) attempts fuel sp sc w = Ret (sp', sc', w', Done r) /\
    pours default M dent xs a w kept lost a' w' stop /\ pour_ends M RP DP RC DC l sp' sc' a' r stop /\
    length kept + length lost + match stop with Some (_, rest) => 1 + length rest | None => 0 end = length xs.
Proof.
  intros W T A F PE CE SP SC default P RP DP LP U M dent RC DC L attempts xs fuel sp sc w l k a kc v HP HC Hf Ha.
  destruct (@pour_again W SP SC A T F PE CE default P RP DP LP U M dent RC DC L attempts xs fuel sp sc w l k a kc v HP HC Hf Ha)
    as (sp' & sc' & w' & r & kept & lost & a' & stop & H1 & H2 & H3).
  exists sp', sc', w', r, kept, lost, a', stop. split; [exact H1|]. split; [exact H2|]. split; [exact H3|].
  exact (@pours_count W A T F CE default M dent xs a w kept lost a' w' stop H2).
Qed.
Print Assumptions C111_pipe_again.

(** Into a vector: what was not lost is in the vector. *)
Theorem C111_pipe_into_vec :
  forall (W T SP PE : Type) (default : W -> W * option T) (keep : nat -> nat) (P : bulk_producer SP T unit PE) RP DP, lawful_producer_core P RP DP ->
  forall attempts xs fuel sp (v : list T) w l k, RP sp xs l k -> length xs < fuel -> length xs < attempts ->
  exists sp' sc' w' kept lost,
    pipe_again (calm_produce P) (u_consume (into_vec_u default keep)) (calm_close (u_calm (into_vec_u default keep))) attempts fuel sp (into_vec_from_vec v) w =
      Ret (sp', sc', w', Done (match l with Ok _ => Ok tt | Err e => Err (PipeProducer e) end)) /\
    pours default (collect_machine T unit infallible) (fun a => a) xs v w kept lost (v ++ kept) w' None /\ DP sp' /\
    length kept + length lost = length xs /\ into_vec_into_vec sc' = v ++ kept.
Proof.
  intros W T SP PE default keep P RP DP LP attempts xs fuel sp v w l k HP Hf Ha.
  destruct (C111_pipe_again W T _ unit PE infallible SP _ default P RP DP LP _ _ _ _ _ (@into_vec_takes W T default keep) attempts xs fuel sp (into_vec_from_vec v) w
    l k v 0 [] HP (@iv_rel_from_vec T v) Hf Ha) as (sp' & sc' & w' & r & kept & lost & a' & stop & H1 & H2 & H3 & H4).
  destruct stop as [[[] rest]|]. pose proof (@pours_log W _ T _ _ default _ _ _ (@collect_logs T unit infallible) _ _ _ _ _ _ _ _ H2) as Hlog. cbn in Hlog. subst a'.
  destruct H3 as (-> & HD & H3). exists sp', sc', w', kept, lost. repeat split.
  - rewrite H1. destruct l as [[]|e]; reflexivity.
  - exact H2.
  - exact HD.
  - lia.
  - destruct l as [fin|e]; exact (proj2 (@iv_rel_read T _ _ _ _ H3)).
Qed.
Print Assumptions C111_pipe_into_vec.

(** A [default] that panics when the world says so. *)
Definition ex_default (w : list bool) : list bool * option nat :=
  match w with
  | [] => ([], Some 7)
  | true :: w => (w, Some 7)
  | false :: w => (w, None)
  end.
Definition ex_copy (x : nat) (w : list bool) : list bool * option nat := (w, Some x).

(** One call after the other. *)
Fixpoint d_sequence {W S T F E} (clone : T -> W -> W * option T) (U : u_consumer W S T F E) (calls : list (cop T F)) (s : S) (w : W)
  : outcome (S * W * list (caught (cans E))) :=
  match calls with
  | [] => Ret (s, w, [])
  | o :: calls =>
      let* (s, w, r) := d_do clone U o s w in
      let* (s, w, rs) := d_sequence clone U calls s w in
      Ret (s, w, r :: rs)
  end.

(** What a panic leaves in the vector makes a difference to the number of slots, but not to what is collected. *)
Example C111_example_into_vec :
  let run keep :=
    let* (s, w, rs) := d_sequence ex_copy (into_vec_u ex_default keep) [CConsume 1; CConsume 2; CConsume 3; CExpose; CBulkConsume [4; 5; 6]; CFlush]
      into_vec_new [true; true; false; true; true; true; false] in
    Ret (into_vec_into_vec s, iv_v s, w, rs) in
  run (fun n => n) = Ret ([1; 3; 4; 5; 6], [1; 3; 4; 5; 6], [false],
    [Done (CAUnit (Ok tt)); Unwound; Done (CAUnit (Ok tt)); Done (CASlots (Ok 3)); Done (CANat (Ok 3)); Done (CAUnit (Ok tt))]) /\
  run (fun n => 0) = Ret ([1; 3; 4], [1; 3; 4], [true; false],
    [Done (CAUnit (Ok tt)); Unwound; Done (CAUnit (Ok tt)); Done (CASlots (Ok 1)); Done (CANat (Ok 1)); Done (CAUnit (Ok tt))]).
Proof. split; vm_compute; reflexivity. Qed.

Example C111_example_test_consumer :
  (let* (s, w, rs) := d_sequence ex_copy (@test_consumer_u _ _ ex_default (fun n => n) unit nat)
     [CConsume 1; CConsume 2; CExpose; CExpose; CExpose; CWrite [4; 5]; CConsumeSlots 2; CConsume 6]
     (test_consumer_build 9 3 (Some [2; 3]) (Some [true; false])) [false; true; true; true; false] in
   Ret (test_consumer_into_consumed s, tc_sizes s, w, rs)) = 
  Ret ([2; 4; 5], None, Some ([2; 3], 1), [],
    [Unwound; Done (CAUnit (Ok tt)); Done (CASlots (Ok 2)); Unwound; Done (CASlots (Ok 2)); Done CANone; Done (CAUnit (Ok tt)); Done (CAUnit (Err 9))]).
Proof. vm_compute; reflexivity. Qed.

(** That a limit of n lets through n items is not true then: with a limit of two, the first call panics, the item of the second call gets
    through, and the third is refused. With [bulk_consume] instead, a panic does not count. *)
Theorem C111_limit_refuted :
  exists (n : nat) (w : list bool),
    n = 2 /\
    (exists s', d_history ex_default ex_copy (limit_machine (collect_machine nat unit infallible)) (fun na => (fst na - 1, snd na))
        (limit_u (into_vec_u ex_default (fun n => n))) (limit_new into_vec_new n) w (CActive (n, []) 0 [])
        [(CConsume 1, Unwound); (CConsume 2, Done (CAUnit (Ok tt))); (CConsume 3, Done (CAUnit (Err None)))] s' [] (CEnded (0, [2])) /\
      into_vec_into_vec (lim_inner s') = [2]) /\
    (let* (s, w, rs) := d_sequence ex_copy (limit_u (into_vec_u ex_default (fun n => n)))
       [CBulkConsume [1; 2; 3]; CBulkConsume [1; 2; 3]; CBulkConsume [2; 3]; CConsume 3] (limit_new into_vec_new n) w in
     Ret (into_vec_into_vec (lim_inner s), rs)) =
    Ret ([1; 2], [Unwound; Done (CANat (Ok 1)); Done (CANat (Ok 1)); Done (CAUnit (Err None))]).
Proof.
  exists 2, [false]. split; [reflexivity|]. split; [|vm_compute; reflexivity].
  exists (mk_limit (mk_into_vec [2] 1) 0). split; [|reflexivity].
  eapply d_history_step with (b1 := CActive (1, []) 0 []); [exact I|vm_compute; reflexivity| |].
  - split; [apply trips_here; reflexivity|reflexivity].
  - eapply d_history_step with (b1 := CActive (0, [2]) 0 []); [exact I|vm_compute; reflexivity| |].
    + split; [eapply makes_more; [reflexivity|apply makes_none]|split; reflexivity].
    + eapply d_history_step; [exact I|vm_compute; reflexivity| |constructor]. split; [apply makes_none|split; reflexivity].
Qed.
Print Assumptions C111_limit_refuted.

(** And that [pipe] loses nothing is not true either: called again after a panic, it goes on with the next item. *)
Theorem C111_pipe_refuted :
  exists (items : list nat) (w : list bool) sp sc w' ,
    pipe_again (calm_produce (@from_slice_producer nat)) (u_consume (into_vec_u ex_default (fun n => n)))
      (calm_close (u_calm (into_vec_u ex_default (fun n => n)))) 5 5 (from_slice_new items) into_vec_new w = Ret (sp, sc, w', Done (Ok tt)) /\
    from_slice_not_yet_produced sp = Ret [] /\ into_vec_into_vec sc = [1; 3; 4] /\ items = [1; 2; 3; 4].
Proof.
  exists [1; 2; 3; 4], [true; false; true; true; true], (mk_from_slice [1; 2; 3; 4] 4), (mk_into_vec [1; 3; 4] 3), [true].
  split; [vm_compute; reflexivity|]. repeat split; vm_compute; reflexivity.
Qed.
Print Assumptions C111_pipe_refuted.

(** With a constant for [default], these are the models of C18 and C34. *)
Theorem C111_plain_default_is_the_plain_model :
  forall (T F E : Type) (x : T) (keep : nat -> nat),
  (forall item s, into_vec_consume_u (plain_default x) keep item s tt = let* (s', r) := into_vec_consume x item s in Ret (s', tt, Done r)) /\
  (forall s, into_vec_expose_u (plain_default x) keep s tt = let* (s', r) := into_vec_expose x s in Ret (s', tt, Done r)) /\
  (forall item (s : test_consumer_state T F E),
     test_consumer_consume_u (plain_default x) keep item s tt = let* (s', r) := test_consumer_consume x item s in Ret (s', tt, Done r)) /\
  (forall s : test_consumer_state T F E,
     test_consumer_expose_u (plain_default x) keep s tt = let* (s', r) := test_consumer_expose x s in Ret (s', tt, Done r)).
Proof.
  intros T F E x keep. destruct (@into_vec_plain T x keep) as [H1 H2]. destruct (@test_consumer_plain T x keep F E) as [H3 H4].
  split; [exact H1|]. split; [exact H2|]. split; [exact H3|exact H4].
Qed.
Print Assumptions C111_plain_default_is_the_plain_model.

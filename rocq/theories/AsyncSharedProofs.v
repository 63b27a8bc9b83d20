(** Proofs about shared objects with futures. *)
From Coq Require Import Bool List Arith Lia.
From Coq.Init Require Import Byte.
From Verif Require Import Prelude ListFacts Traits Contracts AdaptorSpec CodecModel CodecSpec SharedModel SharedSpec SharedProofs
  BasicModel BasicSpec BasicProofs ContractFacts AsyncModel AsyncAdaptorModel AsyncSpec AsyncProofs AsyncSuspendProofs AsyncSharedModel.
Import ListNotations.

Lemma fut_prog_implements : forall S X (f : fut S X), implements (fut_prog f) (run f).
Proof.
  fix IH 3. intros S X [p] s. cbn. destruct (p s) as [[s' [x|w f']]| |]; cbn; auto. apply IH.
Qed.

Lemma codec_implements_encode : forall S F E V a_encode encode (C : a_bulk_consumer S byte F E) (v : V), completes_encode a_encode encode ->
  implements (fut_prog (a_encode _ _ _ C v)) (fun s => encode _ _ _ (blocking_bulk_consumer C) v s).
Proof. intros S F E V a_encode encode C v H s. rewrite fut_prog_implements. apply H. Qed.

Lemma codec_implements_decode : forall S F E V O a_decode encode (P : a_bulk_producer S byte F E), @completes_decode V O a_decode encode ->
  implements (fut_prog (a_decode _ _ _ P)) (fun s => encode _ _ _ (blocking_bulk_producer P) s).
Proof. intros S F E V O a_decode decode P H s. rewrite fut_prog_implements. apply H. Qed.

Section Polls.
  Context {S X L K : Type} (sem : L -> K -> L * body S X).

  Lemma update_update : forall A i (x y : A) xs, update i x (update i y xs) = update i x xs.
  Proof. intros A i x y. induction i as [|i IH]; intros [|z xs]; cbn; auto. now rewrite IH. Qed.

  Lemma nth_update : forall A i (x y : A) xs, nth_error xs i = Some y -> nth_error (update i x xs) i = Some x.
  Proof. intros A i x y. induction i as [|i IH]; intros [|z xs] H; cbn in *; try discriminate; auto. Qed.

  Lemma running_polls : forall (f : fut S X) shared i tasks hist base t l c s' x,
    nth_error tasks i = Some t -> tk_now t = Running l c (fut_prog f) -> run f shared = Ret (s', x) ->
    sys_run sem (repeat (Poll i) (pendings f shared + 2)) (mk_system shared (Some i) tasks hist base) =
      Ret (mk_system s' None (update i (mk_task (tk_local t) (tk_calls t) Idle (tk_log t ++ [(l, c, Some x)])) tasks)
             (hist ++ [(i, (l, c, x))]) s').
  Proof.
    fix IH 1. intros [p] shared i tasks hist base t l c s' x Ht Hn Hr. cbn in Hr. cbn [pendings].
    destruct (p shared) as [[s1 [y|w f']]| |] eqn:Ep; try discriminate.
    - injection Hr as -> ->. cbn. rewrite Ht, Hn. cbn. rewrite Ep. cbn.
      rewrite (nth_update _ _ _ _ _ Ht). cbn. now rewrite update_update.
    - cbn [Nat.add repeat sys_run sys_step sy_tasks]. rewrite Ht, Hn. cbn. rewrite Ep. cbn [bind].
      cbn [sy_shared sy_holder sy_hist sy_base].
      erewrite (IH f' s1 i _ hist base _ l c s' x); [|exact (nth_update _ _ _ _ _ Ht)|reflexivity|exact Hr].
      cbn. now rewrite update_update.
  Qed.

  Lemma call_polls : forall (f : fut S X) y i t l c s' x,
    nth_error (sy_tasks y) i = Some t -> tk_now t = Waiting l c (fut_prog f) -> sy_holder y = None ->
    run f (sy_shared y) = Ret (s', x) ->
    sys_run sem (repeat (Poll i) (pendings f (sy_shared y) + 3)) y =
      Ret (mk_system s' None (update i (mk_task (tk_local t) (tk_calls t) Idle (tk_log t ++ [(l, c, Some x)])) (sy_tasks y))
             (sy_hist y ++ [(i, (l, c, x))]) s').
  Proof.
    intros f [shared holder tasks hist base] i t l c s' x Ht Hn Hh Hr. cbn in Ht, Hh, Hr. subst holder.
    cbn [sy_shared sy_tasks sy_hist]. replace (pendings f shared + 3) with (Datatypes.S (pendings f shared + 2)) by lia.
    cbn [repeat sys_run sys_step sy_tasks sy_shared]. rewrite Ht, Hn. cbn [sy_holder bind sy_shared sy_hist].
    erewrite (running_polls f shared i _ hist shared _ l c s' x); [|exact (nth_update _ _ _ _ _ Ht)|reflexivity|exact Hr].
    cbn. now rewrite update_update.
  Qed.
End Polls.

Section Integers.
  Context {V F E : Type} (enc : V -> list byte).

  Lemma feed_calls_failing : forall (error : E) (cs : list (unit * ecall unit V F)) a a',
    feed_calls (failing_machine byte F error) (fun _ => enc) cs a = (a', None) ->
    t_log a' = t_log a ++ call_bytes (fun _ => enc) cs.
  Proof.
    intros error. induction cs as [|[u [v|f| |r]] cs IH]; intros a a' H; cbn [feed_calls call_bytes flat_map snd fst] in H |- *.
    - injection H as <-. now rewrite app_nil_r.
    - destruct (m_feed (failing_machine byte F error) (enc v) a) as [[a1 n] [e|]] eqn:E1; [discriminate|].
      destruct (failing_feed error _ _ _ _ E1) as (H1 & _). apply IH in H. rewrite H, H1. unfold call_bytes. now rewrite app_assoc.
    - exact (IH _ _ H).
    - unfold failing_machine in H at 1. cbn [m_flush] in H. destruct (t_left a); [discriminate|]. exact (IH _ _ H).
    - exact (IH _ _ H).
  Qed.

  Lemma shared_test_consumer : forall (encode : encode_fn V) (error : E) n sizes pattern
      (encp : V -> prog (test_consumer_state byte F E) (res unit E)) flushp (tasks : list (unit * list (ecall infallible V F))) evs y,
    lawful_encode encode enc ->
    (match sizes with Some l => Forall (fun n => 1 <= n) l | None => True end) ->
    (forall v, implements (encp v) (fun s => encode _ _ _ (blocking_bulk_consumer (a_test_consumer x00)) v s)) ->
    implements flushp (fun s => c_flush (blocking_bulk_consumer (a_test_consumer x00)) s) ->
    careful (shared_encoder encp flushp) (system_new (test_consumer_build error n sizes pattern) tasks) evs y ->
    Forall (fun e => snd (snd e) = Ok tt) (sy_hist y) -> sy_holder y = None ->
    test_consumer_consumed (sy_shared y) =
      Ret (concat (map (fun e => match snd (fst (snd e)) with EConsume v => enc v | _ => [] end) (sy_hist y))).
  Proof.
    intros encode error n sizes pattern encp flushp tasks evs y LE Hs IE IF H HF Hh.
    destruct (careful_ok H (sys_ok_new _ _ tasks)) as (H1 & H2 & _). unfold lock_ok in H2. rewrite Hh in H2. destruct H2 as [-> _].
    rewrite (map_ext (fun e => call_alone (shared_encoder encp flushp) (fst (snd e)))
      (fun e => call_alone (shared_relative_encoder (fun _ => encp) flushp) (tt, embed_ecall (snd (fst (snd e)))))) in H1
      by (intros [j [[[] c] x]]; apply shared_encoder_alone).
    rewrite <- (map_map (fun e => (tt, embed_ecall (snd (fst (snd e))))) (call_alone (shared_relative_encoder (fun _ => encp) flushp))) in H1.
    destruct (encoder_in_turn (fun _ => encode) (fun _ => enc) (fun _ => encp) (fun _ => LE) (a_test_consumer_lawful x00 error) (fun _ => IE) IF
      _ _ _ _ _ (tc_rel_build error n sizes pattern Hs) H1) as (a' & k' & w' & E1 & HR').
    { apply Forall_forall. intros x Hx. apply in_map_iff in Hx as (e & <- & He). rewrite Forall_forall in HF. auto. }
    destruct (@tc_accessors _ _ _ error _ (CActive a' k' w') HR') as (A1 & _). rewrite A1.
    apply feed_calls_failing in E1. rewrite E1. cbn [t_log app]. f_equal. unfold call_bytes. rewrite flat_map_concat_map, map_map. cbn. f_equal.
    apply map_ext. intros [j [[u [v|f| |[]]] x]]; reflexivity.
  Qed.
End Integers.

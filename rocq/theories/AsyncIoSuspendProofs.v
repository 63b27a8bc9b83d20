(** The states in which the adaptors for readers and writers return [Pending]. *)
From Coq Require Import Bool List Arith Lia.
From Verif Require Import Prelude ListFacts QueueModel QueueSpec QueueProofs Traits Contracts ContractFacts IoModel IoSpec IoProofs.
From Verif Require Import AsyncModel AsyncSpec AsyncProofs AsyncCountProofs AsyncSuspendProofs AsyncIoModel AsyncIoSpec AsyncIoProofs.
Import ListNotations.

Ltac nopend := intros; repeat first
  [ assumption
  | lazymatch goal with
    | |- pending_only _ (await _ _) => apply po_await; [|intros]
    | |- pending_only _ (sync _) => apply po_sync
    | |- pending_only _ (ret _) => apply po_sync
    | |- pending_only _ get => apply po_sync
    | |- pending_only _ (attempt _) => apply po_sync
    | |- pending_only _ out_of_fuel => apply po_sync
    end
  | match goal with |- pending_only _ (match ?x with _ => _ end) => destruct x end ].

(** ** Readers *)
Lemma read_one_suspended : forall S T (Rd : a_reader S T) x0 s, suspended (a_read_one Rd x0) s = suspended (ar_read Rd [x0]) s.
Proof.
  intros S T Rd x0 s. unfold a_read_one. rewrite suspended_first by nopend. unfold a_read_exact. cbn [length a_read_exact_loop].
  apply suspended_first. nopend.
Qed.

Lemma read_some_suspended : forall S T (Rd : a_reader S T) buf s, suspended (a_read_some Rd buf) s = suspended (ar_read Rd buf) s.
Proof. intros S T Rd buf s. unfold a_read_some. apply suspended_first. nopend. Qed.

Section BufReader.
  Context {S T : Type} (Rd : a_buf_reader S T) (x0 : T) (R : S -> list T -> res unit io_error -> nat -> Prop).
  Hypothesis L : lawful_buf_reader (blocking_buf_reader Rd) R.
  Hypothesis WR : waiting_buf_reader Rd R.

  Lemma buf_reader_waiting : waiting_producer (a_buf_reader_producer Rd x0) (br_R R).
  Proof.
    intros s bs l k s' [HR HC] H.
    assert (G : forall k1 s1, R s1 bs l k1 -> (exists buf, In s' (suspended (ar_read Rd buf) s1)) \/ In s' (suspended (ar_fill_buf Rd) s1) -> exists k', br_R R s' bs l k').
    { intros k1 s1 HR1 H1. destruct (WR _ _ _ _ _ HR1 H1) as (k' & H2). exists k'. now split. }
    destruct H as [H|[H|[H|[(n & H)|(buf & H)]]]].
    - change (In s' (suspended (a_read_one Rd x0) s)) in H. rewrite read_one_suspended in H. eapply G; eauto.
    - change (In s' (suspended (a_br_slurp Rd) s)) in H. unfold a_br_slurp in H. rewrite suspended_first in H by nopend. eapply G; eauto.
    - change (In s' (suspended (a_br_expose_items Rd) s)) in H. unfold a_br_expose_items in H. rewrite suspended_await in H. apply in_app_or in H as [H|H]; [eapply G; eauto|].
      destruct bs as [|b bs].
      + destruct l as [[]|e].
        * destruct (lb_fill_buf_eof L HR) as (s1 & E1 & _). cbn [blocking_buf_reader r_fill_buf] in E1. rewrite E1 in H. destruct H.
        * destruct (lb_fill_buf_err L HR) as (s1 & E1). cbn [blocking_buf_reader r_fill_buf] in E1. rewrite E1 in H. destruct H.
      + destruct (lb_fill_buf L HR) as (s1 & ys & rest & E1 & N1 & _ & K1 & H1); [discriminate|]. cbn [blocking_buf_reader r_fill_buf] in E1. rewrite E1 in H.
        destruct ys as [|y ys]; [congruence|]. rewrite suspended_first in H by nopend. eapply G; eauto.
    - change (In s' (suspended (a_br_consider_produced Rd n) s)) in H. unfold a_br_consider_produced in H.
      rewrite suspended_none in H by nopend. destruct H.
    - change (In s' (suspended (a_read_some Rd buf) s)) in H. rewrite read_some_suspended in H. eapply G; eauto.
  Qed.
End BufReader.

Section Reader.
  Context {S Q T : Type} (Rd : a_reader S T) (I : queue Q T) (x0 : T) (c : nat).
  Context (R : S -> list T -> res unit io_error -> Prop) (RQ : Q -> list T -> nat -> list T -> Prop).
  Hypothesis LQ : lawful_queue I c RQ.
  Hypothesis Hc : 1 <= c.
  Hypothesis WR : waiting_reader Rd R.

  Lemma rs_suspended : forall X (f : fut S X) s (q : Q), suspended (a_rs f) (mk_reader_state s q) = map (fun i => mk_reader_state i q) (suspended f s).
  Proof. intros X f s q. unfold a_rs. now rewrite suspended_within by reflexivity. Qed.

  Lemma reader_waiting : waiting_producer (a_reader_producer Rd I x0) (rd_R R RQ).
  Proof.
    intros [s q] xs l k st' (items & bs & -> & HQ & HR & Hk & HC) H. cbn [rs_reader rs_queue] in HQ, HR.
    assert (G : forall q1 k1 w1 buf, RQ q1 items k1 w1 -> In st' (map (fun i => mk_reader_state i q1) (suspended (ar_read Rd buf) s)) ->
      exists k', rd_R R RQ st' (items ++ bs) l k').
    { intros q1 k1 w1 buf HQ1 H1. apply in_map_iff in H1 as (s1 & <- & H1). exists 0, items, bs. cbn [rs_reader rs_queue].
      split; [reflexivity|]. split; [exact (lq_forget LQ HQ1)|]. split; [eapply WR; eauto|]. split; [lia|exact HC]. }
    destruct H as [H|[H|[H|[(n & H)|(buf & H)]]]].
    - change (In st' (suspended (a_rd_produce Rd I x0) (mk_reader_state s q))) in H. unfold a_rd_produce in H. rewrite suspended_await in H.
      unfold a_rq in H. rewrite suspended_sync, run_sync in H. cbn [app rs_queue] in H. destruct items as [|x items].
      + rewrite (lq_dequeue_empty LQ HQ) in H. cbn [bind rs_reader] in H. rewrite rs_suspended, read_one_suspended in H. eapply G; eauto.
      + destruct (lq_dequeue LQ HQ) as (q1 & E1 & _). rewrite E1 in H. destruct H.
    - destruct H.
    - change (In st' (suspended (a_rd_expose_items Rd I x0) (mk_reader_state s q))) in H. unfold a_rd_expose_items in H.
      rewrite suspended_await, run_get in H. unfold get in H. rewrite suspended_sync in H. cbn [app rs_queue] in H. destruct items as [|x items].
      + rewrite (q_is_empty_nil LQ _ _ _ HQ) in H. rewrite suspended_await in H. unfold a_rq at 1 2 in H. rewrite suspended_sync, run_sync in H. cbn [app rs_queue] in H.
        destruct (lq_expose_slots LQ HQ) as (q1 & n & E1 & Hn & _ & HQ1); [cbn; lia|]. rewrite E1 in H. cbn [bind rs_reader] in H.
        rewrite suspended_await, run_attempt in H. unfold attempt at 1 in H. rewrite suspended_sync in H. cbn [app expect bind] in H.
        rewrite suspended_first in H by (unfold a_rq; nopend). rewrite rs_suspended in H. eapply G; eauto.
      + rewrite (q_is_empty_cons LQ _ _ _ _ _ HQ) in H. rewrite suspended_none in H by (unfold a_rq; nopend). destruct H.
    - change (In st' (suspended (a_rd_consider_produced (S := S) I n) (mk_reader_state s q))) in H. unfold a_rd_consider_produced, a_rq in H.
      rewrite suspended_none in H by nopend. destruct H.
    - change (In st' (suspended (a_rd_bulk_produce Rd I buf) (mk_reader_state s q))) in H. unfold a_rd_bulk_produce in H.
      rewrite suspended_await, run_get in H. unfold get in H. rewrite suspended_sync in H. cbn [app rs_queue] in H. destruct (q_is_empty I q).
      + rewrite rs_suspended, read_some_suspended in H. eapply G; eauto.
      + rewrite suspended_none in H by (unfold a_rq; nopend). destruct H.
  Qed.
End Reader.

(** ** Writers *)
Section Writer.
  Context {S Q T : Type} (W : a_writer S T) (I : queue Q T) (c : nat).
  Context (RQ : Q -> list T -> nat -> list T -> Prop).
  Hypothesis LW : lawful_writer (blocking_writer W).
  Hypothesis LQ : lawful_queue I c RQ.
  Hypothesis Hc : 1 <= c.

  Lemma run_log : forall X (f : fut S X) (call : X -> wcall T) s log,
    run (a_log f call) (s, log) = let* (s, r) := run f s in Ret (s, log ++ [call r], r).
  Proof.
    intros X f call s log. unfold a_log. rewrite run_await, run_on_fst. destruct (run f s) as [[s1 r]| |]; cbn [bind]; try reflexivity.
  Qed.
  Lemma log_suspended : forall X (f : fut S X) (call : X -> wcall T) s log st',
    In st' (suspended (a_log f call) (s, log)) -> snd st' = log.
  Proof.
    intros X f call s log st' H. unfold a_log in H. rewrite suspended_first in H by nopend. rewrite suspended_on_fst in H.
    apply in_map_iff in H as (s1 & <- & _). reflexivity.
  Qed.

  (** The writes of [write_all] before it waits. *)
  Lemma write_all_loop_suspended : forall fuel buf s log st', In st' (suspended (a_write_all_loop (a_logged W) fuel buf) (s, log)) ->
    exists calls part rest, snd st' = log ++ calls /\ good_calls calls part /\ buf = part ++ rest /\ rest <> [] /\
      (part <> [] -> exists b n, In (WWrite b (Ok n)) calls /\ n < length b).
  Proof.
    induction fuel as [|fuel IH]; intros buf s log st' H; destruct buf as [|b buf]; try (destruct H; fail). cbn [a_write_all_loop] in H.
    rewrite suspended_await in H. apply in_app_or in H as [H|H].
    { cbn [aw_write a_logged] in H. apply log_suspended in H. exists [], [], (b :: buf). rewrite app_nil_r. split; [exact H|].
      split; [apply good_calls_nil|]. split; [reflexivity|]. split; [discriminate|congruence]. }
    cbn [aw_write a_logged] in H. rewrite run_log in H. destruct (lw_write LW s (b :: buf)) as (s1 & r & E1 & Hr). cbn [blocking_writer w_write] in E1.
    rewrite E1 in H. cbn [bind] in H. destruct r as [n|e]; [|destruct H].
    rewrite suspended_await, run_attempt in H. unfold attempt in H. rewrite suspended_sync in H. cbn [app] in H.
    rewrite slice_from_ok in H by exact Hr. cbn [bind] in H. destruct (n =? 0) eqn:En; [destruct H|]. apply Nat.eqb_neq in En.
    destruct (IH _ _ _ _ H) as (calls & part & rest & E2 & HG & E3 & Hne & _).
    exists (WWrite (b :: buf) (Ok n) :: calls), (firstn n (b :: buf) ++ part), rest.
    rewrite <- app_assoc in E2. split; [exact E2|]. split; [|split; [|split; [exact Hne|]]].
    - apply (good_calls_app (c1 := [WWrite (b :: buf) (Ok n)])); [|exact HG].
      split; [|cbn [received flat_map]; apply app_nil_r]. constructor; [cbn; lia|constructor].
    - rewrite <- app_assoc, <- E3. symmetry. apply firstn_skipn.
    - intros _. exists (b :: buf), n. split; [now left|]. destruct (Nat.lt_ge_cases n (length (b :: buf))) as [Hl|Hl]; [exact Hl|].
      rewrite skipn_all2 in E3 by exact Hl. symmetry in E3. apply app_eq_nil in E3 as [_ E3]. congruence.
  Qed.

  Lemma run_logged_write_all_loop : forall fuel buf s, run (a_write_all_loop (a_logged W) fuel buf) s = write_all_loop (logged (blocking_writer W)) fuel buf s.
  Proof.
    induction fuel as [|fuel IH]; intros buf [s log]; destruct buf as [|b buf]; try reflexivity. cbn [a_write_all_loop write_all_loop].
    rstep. cbn [aw_write a_logged logged w_write blocking_writer]. rewrite run_log. destruct (run (aw_write W (b :: buf)) s) as [[s1 [n|e]]| |]; cbn [bind]; try reflexivity.
    rstep. rstep. destruct (slice_from n (b :: buf)) as [rest| |]; cbn [bind]; try reflexivity. destruct (n =? 0); [reflexivity|]. apply IH.
  Qed.

  Lemma ws_suspended : forall X (f : fut (S * list (wcall T)) X) s (q : Q), suspended (a_ws f) (mk_writer_state s q) = map (fun i => mk_writer_state i q) (suspended f s).
  Proof. intros X f s q. unfold a_ws. now rewrite suspended_within by reflexivity. Qed.
  Lemma run_ws : forall X (f : fut (S * list (wcall T)) X) s (q : Q), run (a_ws f) (mk_writer_state s q) = let* (s, r) := run f s in Ret (mk_writer_state s q, r).
  Proof. intros X f s q. unfold a_ws. now rewrite run_within by reflexivity. Qed.

  (** While it waits, [flush_internal_buffer] has written all but [rest], and a part of it. *)
  Definition half_flushed (items : list T) (k : nat) (w : list T) (log : list (wcall T)) (st' : writer_state (S * list (wcall T)) Q) : Prop :=
    exists calls flushed part more, snd (ws_writer st') = log ++ calls /\ good_calls calls (flushed ++ part) /\
      items = flushed ++ part ++ more /\ RQ (ws_queue st') (part ++ more) k w /\
      (part <> [] -> more <> [] /\ exists b n, In (WWrite b (Ok n)) calls /\ n < length b).

  Lemma flush_internal_suspended : forall fuel items q k w s log st', RQ q items k w ->
    In st' (suspended (a_flush_internal_buffer (a_logged W) I fuel) (mk_writer_state (s, log) q)) -> half_flushed items k w log st'.
  Proof.
    induction fuel as [|fuel IH]; intros items q k w s log st' HR H; [destruct H|]. cbn [a_flush_internal_buffer] in H.
    rewrite suspended_await in H. unfold a_wq at 1 2 in H. rewrite suspended_sync, run_sync in H. cbn [app ws_queue ws_writer] in H.
    destruct items as [|x items].
    { rewrite (lq_expose_items_empty LQ HR) in H. destruct H. }
    destruct (lq_expose_items LQ HR) as (q1 & ys & rest & E1 & N1 & X1 & H1); [discriminate|]. rewrite E1 in H. cbn [bind] in H.
    rewrite X1 in *. clear X1 HR. rewrite suspended_await, ws_suspended in H. apply in_app_or in H as [H|H].
    { apply in_map_iff in H as (s1 & <- & H). apply write_all_loop_suspended in H as (calls & part & more & E2 & HG & -> & Hne & HP).
      exists calls, [], part, (more ++ rest). cbn [ws_writer ws_queue app]. split; [exact E2|]. split; [exact HG|].
      rewrite app_assoc. split; [reflexivity|]. split; [exact H1|]. intros HN. split; [|exact (HP HN)]. intros E3. apply app_eq_nil in E3 as [E3 _]. congruence. }
    rewrite run_ws in H. change (run (a_write_all (a_logged W) ys) (s, log)) with (run (a_write_all_loop (a_logged W) (length ys) ys) (s, log)) in H.
    rewrite run_logged_write_all_loop in H.
    destruct (write_all_ok LW Hc ys s log) as (s2 & calls & r & E2 & H2). unfold write_all in E2. rewrite E2 in H. cbn [bind] in H.
    destruct r as [[]|e]; [|destruct H].
    rewrite suspended_await in H. unfold a_wq at 1 2 in H. rewrite suspended_sync, run_sync in H. cbn [app ws_queue ws_writer] in H.
    destruct (lq_consider_dequeued LQ (length ys) H1) as (q3 & E3 & H3); [rewrite app_length; lia|]. rewrite E3 in H. cbn [bind] in H.
    rewrite skipn_app, skipn_all, Nat.sub_diag in H3. cbn [app skipn] in H3.
    destruct (IH _ _ _ _ _ _ _ H3 H) as (calls' & fl & part & more & E4 & HG & -> & HQ & Hne).
    exists (calls ++ calls'), (ys ++ fl), part, more. rewrite E4, app_assoc. split; [reflexivity|]. split; [|split; [|split; [exact HQ|]]].
    - rewrite <- app_assoc. now apply good_calls_app.
    - now rewrite <- app_assoc.
    - intros HN. destruct (Hne HN) as (Hm & b & n & Hin & Hlt). split; [exact Hm|]. exists b, n. split; [apply in_or_app; now right|exact Hlt].
  Qed.

  Lemma run_logged_flush_internal : forall fuel (s : writer_state (S * list (wcall T)) Q),
    run (a_flush_internal_buffer (a_logged W) I fuel) s = flush_internal_buffer (logged (blocking_writer W)) I fuel s.
  Proof.
    induction fuel as [|fuel IH]; intros [s q]; [reflexivity|]. cbn [a_flush_internal_buffer flush_internal_buffer].
    unfold a_wq at 1. rstep. rstep. cbn [ws_queue ws_writer]. destruct (q_expose_items I q) as [[q1 [items|]]| |]; cbn [bind]; try reflexivity.
    rstep. rewrite run_ws. change (run (a_write_all (a_logged W) items) s) with (run (a_write_all_loop (a_logged W) (length items) items) s).
    rewrite run_logged_write_all_loop. unfold write_all.
    destruct (write_all_loop _ _ _ _) as [[s1 [[]|e]]| |]; cbn [bind ws_queue]; try reflexivity.
    unfold a_wq. rstep. rstep. cbn [ws_writer ws_queue]. destruct (q_consider_dequeued _ _ _) as [q2| |]; cbn [bind]; try reflexivity. apply IH.
  Qed.

  Lemma flushed_suspended : forall fuel X (kf : fut (writer_state (S * list (wcall T)) Q) (res X io_error)) items q k w s log st', c < fuel -> RQ q items k w ->
    (forall q1 s1 log1, In st' (suspended kf (mk_writer_state (s1, log1) q1)) -> ws_queue st' = q1 /\ snd (ws_writer st') = log1) ->
    In st' (suspended (a_flushed (a_logged W) I fuel kf) (mk_writer_state (s, log) q)) -> half_flushed items k w log st'.
  Proof.
    intros fuel X kf items q k w s log st' Hf HR Hk H. unfold a_flushed in H. rewrite suspended_await in H. apply in_app_or in H as [H|H].
    { eapply flush_internal_suspended; eassumption. }
    rewrite run_logged_flush_internal in H. pose proof (lq_wf LQ HR) as HW.
    destruct (@flush_internal_ok _ _ _ _ _ _ _ LW LQ Hc fuel items q k w s log HR) as (s1 & q1 & calls & r & E1 & H1); [lia|].
    rewrite E1 in H. destruct r as [[]|e]; [|destruct H]. destruct H1 as [HG HR1]. destruct (Hk _ _ _ H) as [E2 E3].
    exists calls, items, [], []. rewrite E2, E3, !app_nil_r. split; [reflexivity|]. split; [exact HG|]. split; [reflexivity|]. split; [exact HR1|congruence].
  Qed.

  Lemma writer_suspended : forall fuel (o : cop T unit) items q k w s log st', c < fuel -> RQ q items k w ->
    In st' (consumer_suspended (a_writer_consumer (a_logged W) I fuel) o (mk_writer_state (s, log) q)) -> half_flushed items k w log st'.
  Proof.
    intros fuel o items q k w s log st' Hf HR H.
    assert (G : forall X (f : fut S X) (call : X -> wcall T) q1 s1 log1, In st' (suspended (a_ws (a_log f call)) (mk_writer_state (s1, log1) q1)) -> ws_queue st' = q1 /\ snd (ws_writer st') = log1).
    { intros X f call q1 s1 log1 H1. rewrite ws_suspended in H1. apply in_map_iff in H1 as (s2 & <- & H1). split; [reflexivity|]. now apply log_suspended in H1. }
    destruct o as [x|f| | |ys|n|buf]; cbn [consumer_suspended] in H.
    - eapply flushed_suspended; [exact Hf|exact HR| |exact H]. intros q1 s1 log1 H1. rewrite ws_suspended in H1. apply in_map_iff in H1 as (s2 & <- & H1). split; [reflexivity|].
      unfold a_write_all in H1. cbn [length a_write_all_loop] in H1. rewrite suspended_first in H1 by nopend. now apply log_suspended in H1.
    - eapply flushed_suspended; [exact Hf|exact HR| |exact H]. apply G.
    - eapply flushed_suspended; [exact Hf|exact HR| |exact H]. apply G.
    - eapply flushed_suspended; [exact Hf|exact HR| |exact H]. intros q1 s1 log1 H1. unfold a_wq in H1. rewrite suspended_none in H1 by nopend. destruct H1.
    - destruct H.
    - change (In st' (suspended (a_wr_consume_slots (S := S * list (wcall T)) I n) (mk_writer_state (s, log) q))) in H. unfold a_wr_consume_slots, a_wq in H.
      rewrite suspended_none in H by nopend. destruct H.
    - eapply flushed_suspended; [exact Hf|exact HR| |exact H]. intros q1 s1 log1 H1. rewrite suspended_first in H1 by nopend. exact (G _ _ _ _ _ _ H1).
  Qed.
End Writer.

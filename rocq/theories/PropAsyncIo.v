(** Property C79: the adaptors for readers and writers, poll by poll. *)
From Coq Require Import Bool List Arith Lia.
From Verif Require Import Prelude ListFacts QueueModel QueueSpec QueueProofs Traits Contracts ContractFacts BasicModel BasicSpec BasicProofs AdaptorSpec IoModel IoSpec IoProofs PropIo.
From Verif Require Import AsyncModel AsyncSpec AsyncProofs AsyncAdaptorModel AsyncSuspendProofs PropAsync AsyncIoModel AsyncIoSpec AsyncIoProofs AsyncIoSuspendProofs.
Import ListNotations.

(** *** C79. Polled until they are ready, the methods of the adaptors do what C38-C41 say about them; *)
Theorem C79_completes : forall S T Q (I : queue Q T) (x0 : T) fuel,
  (forall Rd : a_buf_reader S T, same_bulk_producer (blocking_bulk_producer (a_buf_reader_producer Rd x0)) (buf_reader_producer (blocking_buf_reader Rd) x0)) /\
  (forall Rd : a_reader S T, same_bulk_producer (blocking_bulk_producer (a_reader_producer Rd I x0)) (reader_producer (blocking_reader Rd) I x0)) /\
  (forall W : a_writer S T, same_bulk_consumer (blocking_bulk_consumer (a_writer_consumer W I fuel)) (writer_consumer (blocking_writer W) I fuel)).
Proof. intros. split; [|split]; intros; [apply same_buf_reader|apply same_reader|apply same_writer]. Qed.
Print Assumptions C79_completes.

(** they return [Pending] only if the reader or the writer does, and in the same way, *)
Theorem C79_pending : forall P S T Q (I : queue Q T) (x0 : T) fuel,
  (forall Rd : a_buf_reader S T, buf_reader_pending P Rd -> bulk_producer_pending P (a_buf_reader_producer Rd x0)) /\
  (forall Rd : a_reader S T, reader_pending P Rd -> bulk_producer_pending P (a_reader_producer Rd I x0)) /\
  (forall W : a_writer S T, writer_pending P W -> bulk_consumer_pending P (a_writer_consumer W I fuel)).
Proof. intros. split; [|split]; intros; [now apply buf_reader_producer_pending|now apply reader_producer_pending|now apply writer_consumer_pending]. Qed.
Print Assumptions C79_pending.

(** and exactly as often. *)
Theorem C79_count : forall S T Q (m : S -> nat) (I : queue Q T) (x0 : T) fuel,
  (forall Rd : a_buf_reader S T, buf_reader_counts m Rd -> bulk_producer_counts m (a_buf_reader_producer Rd x0)) /\
  (forall Rd : a_reader S T, reader_counts m Rd -> bulk_producer_counts (fun st : reader_state S Q => m (rs_reader st)) (a_reader_producer Rd I x0)) /\
  (forall W : a_writer S T, writer_counts m W -> bulk_consumer_counts (fun st : writer_state S Q => m (ws_writer st)) (a_writer_consumer W I fuel)).
Proof. intros. split; [|split]; intros; [now apply buf_reader_producer_counts|now apply reader_producer_counts|now apply writer_consumer_counts]. Qed.
Print Assumptions C79_count.

(** Around a reader that does nothing but wait before it returns [Pending], so does the producer; bytes are then either in the queue
    or still to be read. C77 applies to pipes from such producers. *)
Theorem C79_buf_reader_waiting : forall S T (Rd : a_buf_reader S T) R (x0 : T), lawful_buf_reader (blocking_buf_reader Rd) R -> waiting_buf_reader Rd R ->
  let RP s bs l k := R s bs l k /\ clean_end l in
  lawful_producer (blocking_bulk_producer (a_buf_reader_producer Rd x0)) RP (fun _ => True) /\ waiting_producer (a_buf_reader_producer Rd x0) RP.
Proof.
  intros S T Rd R x0 L WR RP. split; [|exact (buf_reader_waiting Rd x0 R L WR)].
  eapply same_lawful_producer; [apply same_buf_reader|exact (br_lawful x0 L)].
Qed.
Print Assumptions C79_buf_reader_waiting.

Theorem C79_reader_waiting : forall S Q T (Rd : a_reader S T) (I : queue Q T) R RQ c (x0 : T),
  lawful_reader (blocking_reader Rd) R -> lawful_queue I c RQ -> 1 <= c -> waiting_reader Rd R ->
  let RP st xs l k := exists items bs, xs = items ++ bs /\ RQ (rs_queue st) items 0 [] /\ R (rs_reader st) bs l /\ k <= length items /\ clean_end l in
  lawful_producer (blocking_bulk_producer (a_reader_producer Rd I x0)) RP (fun _ => True) /\ waiting_producer (a_reader_producer Rd I x0) RP.
Proof.
  intros S Q T Rd I R RQ c x0 L LQ Hc WR RP. split; [|exact (reader_waiting Rd I x0 c R RQ LQ Hc WR)].
  eapply same_lawful_producer; [apply same_reader|exact (rd_lawful x0 L LQ Hc)].
Qed.
Print Assumptions C79_reader_waiting.

(** A suspended pipe from such a reader: the consumer has the bytes [ys] and [n] more, which the producer may still have to be told about; all other bytes
    are in the queue or still to be read. *)
Theorem C79_reader_pipe : forall S Q SC A T E (Rd : a_reader S T) (I : queue Q T) R RQ c (x0 : T) (C : a_bulk_consumer SC T unit E) (M : machine A T unit E) RC DC
    fuel s q items bs l sc a kk w st' sc',
  lawful_reader (blocking_reader Rd) R -> lawful_queue I c RQ -> 1 <= c -> waiting_reader Rd R ->
  lawful_consumer (blocking_bulk_consumer C) M RC DC -> waiting_consumer C RC ->
  R s bs l -> RQ q items 0 [] -> clean_end l -> RC sc a kk w ->
  In (st', sc') (suspended (a_bulk_pipe fuel (a_reader_producer Rd I x0) C) (mk_reader_state s q, sc)) ->
  exists ys rest n a' kk' w', items ++ bs = ys ++ rest /\ n <= length rest /\ m_feed M (ys ++ firstn n rest) a = (a', length ys + n, None) /\ RC sc' a' kk' w' /\
    ((exists items' bs', rest = items' ++ bs' /\ RQ (rs_queue st') items' 0 [] /\ R (rs_reader st') bs' l) \/ (rest = [] /\ l = Ok tt)).
Proof.
  intros S Q SC A T E Rd I R RQ c x0 C M RC DC fuel s q items bs l sc a kk w st' sc' L LQ Hc WR LC WC HR HQ HE HC H.
  destruct (C79_reader_waiting _ _ _ Rd I R RQ c x0 L LQ Hc WR) as [LP WP]. cbv zeta in LP, WP.
  eapply C77_bulk_pipe with (k := 0) (xs := items ++ bs) (l := l) in H; [|exact LP|exact LC| |exact HC].
  - eapply (C77_waiting _ _ _ _ _ _ _ _ _ _ _ _ _ _ _ _ _ _ WP WC) in H as (ys & rest & n & a' & kk' & w' & E1 & Hn & HF & HC' & HP).
    exists ys, rest, n, a', kk', w'. do 4 (split; [assumption|]).
    destruct HP as [(k & items' & bs' & -> & HQ' & HR' & _ & _)|([] & -> & -> & _)]; [left; eauto|now right].
  - exists items, bs. cbn [rs_queue rs_reader]. split; [reflexivity|]. split; [exact HQ|]. split; [exact HR|]. split; [apply Nat.le_0_l|exact HE].
Qed.
Print Assumptions C79_reader_pipe.

(** The writer adaptor, while it waits: of the bytes that were in the queue, it has written [flushed], and taken them out of the queue, and written a
    further [part], which is still in the queue too. That can only be if the writer did not accept all of some buffer. *)
Theorem C79_writer_suspended : forall S Q T (W : a_writer S T) (I : queue Q T) RQ c fuel (o : cop T unit) queued q k w s log st',
  lawful_writer (blocking_writer W) -> lawful_queue I c RQ -> 1 <= c -> c < fuel -> RQ q queued k w ->
  In st' (consumer_suspended (a_writer_consumer (a_logged W) I fuel) o (mk_writer_state (s, log) q)) ->
  exists calls flushed part more, snd (ws_writer st') = log ++ calls /\ Forall good_write calls /\ received calls = flushed ++ part /\
    queued = flushed ++ part ++ more /\ RQ (ws_queue st') (part ++ more) k w /\
    (part <> [] -> more <> [] /\ exists buf n, In (WWrite buf (Ok n)) calls /\ n < length buf).
Proof.
  intros S Q T W I RQ c fuel o queued q k w s log st' LW LQ Hc Hf HR H.
  destruct (writer_suspended W I c RQ LW LQ Hc fuel o queued q k w s log st' Hf HR H) as (calls & fl & part & more & A & [B1 B2] & C & D & E).
  exists calls, fl, part, more. split; [exact A|]. split; [exact B1|]. split; [exact B2|]. split; [exact C|]. split; [exact D|exact E].
Qed.
Print Assumptions C79_writer_suspended.

(** A record of the calls does not change what the writer and the adaptor do. *)
Theorem C79_logged : forall S T X (f : fut S X) (call : X -> wcall T) s log,
  run (a_log f call) (s, log) = (let* (s, r) := run f s in Ret (s, log ++ [call r], r)) /\
  suspended (a_log f call) (s, log) = map (fun s => (s, log)) (suspended f s).
Proof.
  intros S T X f call s log. split; [apply run_log|]. unfold a_log. rewrite suspended_first by nopend. apply suspended_on_fst.
Qed.
Print Assumptions C79_logged.

(** ** Examples *)

(** Readers and writers that return [Pending] twice before every call. *)
Definition slow {S X} (g : S -> outcome (S * X)) : fut S X :=
  Fut (fun s => Ret (s, Pending true (Fut (fun s => Ret (s, Pending true (sync g)))))).
Definition slow_reader : a_reader chunks nat := mk_a_reader (fun buf => slow (ch_read buf)).
Definition slow_buf_reader : a_buf_reader chunks nat := mk_a_buf_reader slow_reader (slow ch_fill_buf) ch_consume.
Definition slow_writer : a_writer (list nat) nat :=
  mk_a_writer (fun buf => slow (sw_write buf)) (slow (fun s => Ret (s, Ok tt))) (slow (fun s => Ret (s, Ok tt))).

Lemma run_slow : forall S X (g : S -> outcome (S * X)) s, run (slow g) s = g s.
Proof. intros. cbn. destruct (g s) as [[s' x]| |]; reflexivity. Qed.
Lemma slow_pending : forall S X (g : S -> outcome (S * X)), pending_only (eq true) (slow g).
Proof. intros S X g s. cbn. split; [reflexivity|]. intros s1. split; [reflexivity|]. intros s2. destruct (g s2) as [[s' x]| |]; exact Logic.I. Qed.
Lemma slow_suspended : forall S X (g : S -> outcome (S * X)) s, suspended (slow g) s = [s; s].
Proof. intros. cbn. destruct (g s) as [[s' x]| |]; reflexivity. Qed.

Lemma slow_lawful : lawful_reader (blocking_reader slow_reader) ch_R /\ lawful_buf_reader (blocking_buf_reader slow_buf_reader) ch_RB /\
  lawful_writer (blocking_writer slow_writer).
Proof.
  split; [|split].
  - destruct ch_lawful as [A B C]. constructor; intros; cbn -[ch_read slow]; rewrite run_slow; [now apply (A s bs l)|now apply (B s)|now apply (C s)].
  - destruct ch_buf_lawful as [A1 A2 A3 A4 A5 A6 A7 A8 A9]. constructor; intros; cbn -[ch_read ch_fill_buf slow]; try rewrite run_slow; eauto.
  - destruct sw_lawful as [A B C]. constructor; intros; cbn -[sw_write slow]; rewrite run_slow; [apply A|apply B|apply C].
Qed.

Example C79_slow_waiting : waiting_reader slow_reader ch_R /\ waiting_buf_reader slow_buf_reader ch_RB /\ reader_pending (eq true) slow_reader /\
  writer_pending (eq true) slow_writer.
Proof.
  split; [|split; [|split]].
  - intros s bs l buf s' HR H. cbn [slow_reader ar_read] in H. rewrite slow_suspended in H. destruct H as [<-|[<-|[]]]; exact HR.
  - intros s bs l k s' HR [(buf & H)|H]; cbn [slow_buf_reader ar_reader slow_reader ar_read ar_fill_buf] in H; rewrite slow_suspended in H;
      destruct H as [<-|[<-|[]]]; exists k; exact HR.
  - intros buf. apply slow_pending.
  - split; [|split]; [intros buf|..]; apply slow_pending.
Qed.

(** The reader waits in the middle of [expose_items]: nothing has been read. *)
Example C79_example_reader :
  let st := mk_reader_state (ex_chunks (Ok tt)) (fixed_new 0 3) in
  pendings (ap_expose (a_reader_producer slow_reader (fixed_queue nat) 0)) st = 2 /\
  map (fun st => ch_bytes (rs_reader st)) (suspended (ap_expose (a_reader_producer slow_reader (fixed_queue nat) 0)) st) = [[1; 2; 3; 4; 5; 6; 7]; [1; 2; 3; 4; 5; 6; 7]] /\
  pendings (ap_expose (a_buf_reader_producer slow_buf_reader 0)) (ex_chunks (Ok tt)) = 4.
Proof. vm_compute. auto. Qed.

(** The queue of the adaptor holds 1, 2, 3, and the writer accepts a byte at a time: when [flush] waits for the third time, the byte 1 is both in the
    writer and in the queue. *)
Definition ex_slow : writer_state (list nat * list (wcall nat)) (fixed nat) := mk_writer_state ([0; 0; 0; 0; 0; 0], []) (mk_fixed [1; 2; 3] 0 3).
Definition ex_flush : fut (writer_state (list nat * list (wcall nat)) (fixed nat)) (res unit io_error) :=
  ac_flush (a_writer_consumer (a_logged slow_writer) (fixed_queue nat) 4).

Example C79_example_writer :
  map (fun st => (received (snd (ws_writer st)), q_len (fixed_queue nat) (ws_queue st))) (suspended ex_flush ex_slow) =
    [([], 3); ([], 3); ([1], 3); ([1], 3); ([1; 2], 3); ([1; 2], 3); ([1; 2; 3], 0); ([1; 2; 3], 0)] /\
  fixed_R 3 (ws_queue ex_slow) [1; 2; 3] 0 [].
Proof.
  split; [vm_compute; reflexivity|]. unfold fixed_R. cbn. splits; auto; try lia. intros [|[|[|i]]] Hi; try reflexivity. lia.
Qed.

(** The crate forbids dropping a future that is not ready and calling a method again (ufotofu/src/lib.rs 33). Indeed, after dropping [flush],
    bytes are written twice. *)
Definition dropped_flush (n : nat) : outcome (list nat) :=
  let* (st, _) := polls n ex_flush ex_slow in
  let* (st, _) := run ex_flush st in
  Ret (received (snd (ws_writer st))).

Theorem C79_dropped_flush_refuted : exists n, dropped_flush n <> Ret [1; 2; 3].
Proof. exists 3. vm_compute. discriminate. Qed.
Print Assumptions C79_dropped_flush_refuted.

Example C79_example_dropped : dropped_flush 0 = Ret [1; 2; 3] /\ dropped_flush 2 = Ret [1; 2; 3] /\ dropped_flush 3 = Ret [1; 1; 2; 3] /\ dropped_flush 5 = Ret [1; 2; 1; 2; 3].
Proof. vm_compute. auto. Qed.

(** A bulk pipe from the slow reader to a test consumer meets the hypotheses of [C79_reader_pipe]. *)
Example C79_example_pipe : forall st' sc',
  In (st', sc') (suspended (a_bulk_pipe 20 (a_reader_producer slow_reader (fixed_queue nat) 0) (a_test_consumer (F := unit) (E := nat) 0))
    (mk_reader_state (ex_chunks (Ok tt)) (fixed_new 0 3), test_consumer_build 0 10 (Some [2]) (Some [true; false]))) ->
  exists ys rest, [1; 2; 3; 4; 5; 6; 7] = ys ++ rest /\ test_consumer_consumed sc' = Ret ys.
Proof.
  intros st' sc' H. assert (HQ : fixed_R 3 (fixed_new 0 3) [] 0 []).
  { unfold fixed_R. cbn. splits; auto; try lia. }
  eapply C79_reader_pipe with (RQ := fixed_R 3) (c := 3) (bs := [1; 2; 3; 4; 5; 6; 7]) (RC := tc_rel 0) in H as (ys & rest & n & a' & kk' & w' & E1 & Hn & HF & HC & _);
    [|apply slow_lawful|apply fixed_lawful|lia|apply C79_slow_waiting|apply a_test_consumer_lawful|exact (proj2 (C77_test_objects nat unit nat 0 0))
     |split; reflexivity|exact HQ|exact Logic.I|apply tc_rel_build; repeat constructor].
  destruct (failing_feed _ _ _ _ _ HF) as (H1 & _ & _). cbn [t_log app] in H1.
  destruct (@tc_accessors _ _ _ 0 sc' (CActive a' kk' w') HC) as (A1 & _). rewrite H1 in A1.
  exists (ys ++ firstn n rest), (skipn n rest). split; [|exact A1]. rewrite <- app_assoc, firstn_skipn. exact E1.
Qed.

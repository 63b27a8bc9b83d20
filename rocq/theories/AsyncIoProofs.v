(** Proofs about the asynchronous adaptors for readers and writers. *)
From Coq Require Import Bool List Arith Lia.
From Verif Require Import Prelude ListFacts QueueModel QueueSpec QueueProofs Traits Contracts ContractFacts IoModel IoSpec IoProofs.
From Verif Require Import AsyncModel AsyncSpec AsyncProofs AsyncCountProofs AsyncSuspendProofs AsyncIoModel AsyncIoSpec.
Import ListNotations.

Ltac rio := repeat first
  [ progress (cbn [bind rs_reader rs_queue ws_writer ws_queue blocking_reader blocking_buf_reader blocking_writer r_read r_reader r_fill_buf r_consume
      w_write w_flush w_close expect])
  | reflexivity | rstep | rmatch | rdes ].

(** ** Completion *)
Section RunReaders.
  Context {S T : Type}.

  Lemma run_read_exact_loop : forall (Rd : a_reader S T) fuel done buf s,
    run (a_read_exact_loop Rd fuel done buf) s = read_exact_loop (blocking_reader Rd) fuel done buf s.
  Proof.
    intros Rd. induction fuel as [|fuel IH]; intros done buf s; destruct buf as [|b buf]; try reflexivity.
    cbn [a_read_exact_loop read_exact_loop]. rstep. cbn [blocking_reader r_read].
    destruct (run (ar_read Rd (b :: buf)) s) as [[s1 [buf1 [n|e]]]| |]; cbn [bind]; try reflexivity.
    rstep. rstep. destruct (slice_from n buf1) as [rest| |]; cbn [bind]; try reflexivity.
    destruct (n =? 0); [reflexivity|]. apply IH.
  Qed.

  Lemma run_read_one : forall (Rd : a_reader S T) x0 s, run (a_read_one Rd x0) s = read_one (blocking_reader Rd) x0 s.
  Proof.
    intros Rd x0 s. unfold a_read_one, read_one, a_read_exact, read_exact. rstep. rewrite run_read_exact_loop.
    destruct (read_exact_loop _ _ _ _ _) as [[s1 [buf [[]|e]]]| |]; rio.
  Qed.

  Lemma run_read_some : forall (Rd : a_reader S T) buf s, run (a_read_some Rd buf) s = read_some (blocking_reader Rd) buf s.
  Proof. intros Rd buf s. unfold a_read_some, read_some. rio. Qed.

  Lemma same_buf_reader : forall (Rd : a_buf_reader S T) x0,
    same_bulk_producer (blocking_bulk_producer (a_buf_reader_producer Rd x0)) (buf_reader_producer (blocking_buf_reader Rd) x0).
  Proof.
    intros Rd x0. split; [split|split; [|split]].
    - intros s. apply run_read_one.
    - intros s. cbn -[await br_slurp]. unfold a_br_slurp, br_slurp. rio.
    - intros s. cbn -[await br_expose_items]. unfold a_br_expose_items, br_expose_items. rio.
    - intros n s. cbn -[await br_consider_produced]. unfold a_br_consider_produced, br_consider_produced. rio.
    - intros buf s. apply run_read_some.
  Qed.

  Context {Q : Type} (I : queue Q T).

  Lemma same_reader : forall (Rd : a_reader S T) x0,
    same_bulk_producer (blocking_bulk_producer (a_reader_producer Rd I x0)) (reader_producer (blocking_reader Rd) I x0).
  Proof.
    intros Rd x0. split; [split|split; [|split]].
    - intros s. cbn -[await rd_produce a_rd_produce]. unfold a_rd_produce, rd_produce, a_rq, a_rs. rstep. rstep.
      destruct (q_dequeue I (rs_queue s)) as [[q [x|]]| |]; cbn [bind]; try reflexivity. rstep. cbn [rs_reader rs_queue]. now rewrite run_read_one.
    - intros s. reflexivity.
    - intros s. cbn -[await rd_expose_items a_rd_expose_items]. unfold a_rd_expose_items, rd_expose_items, a_rq, a_rs. rio.
    - intros n s. cbn -[await rd_consider_produced a_rd_consider_produced]. unfold a_rd_consider_produced, rd_consider_produced, a_rq. rio.
    - intros buf s. cbn -[await rd_bulk_produce a_rd_bulk_produce]. unfold a_rd_bulk_produce, rd_bulk_produce, a_rq, a_rs. rstep. rstep. cbn [bind].
      destruct (q_is_empty I (rs_queue s)); [rstep; now rewrite run_read_some|rio].
  Qed.

  Lemma run_write_all_loop : forall (W : a_writer S T) fuel buf s,
    run (a_write_all_loop W fuel buf) s = write_all_loop (blocking_writer W) fuel buf s.
  Proof.
    intros W. induction fuel as [|fuel IH]; intros buf s; destruct buf as [|b buf]; try reflexivity.
    cbn [a_write_all_loop write_all_loop]. rstep. cbn [blocking_writer w_write].
    destruct (run (aw_write W (b :: buf)) s) as [[s1 [n|e]]| |]; cbn [bind]; try reflexivity.
    rstep. rstep. destruct (slice_from n (b :: buf)) as [rest| |]; cbn [bind]; try reflexivity.
    destruct (n =? 0); [reflexivity|]. apply IH.
  Qed.

  Lemma run_write_all : forall (W : a_writer S T) buf s, run (a_write_all W buf) s = write_all (blocking_writer W) buf s.
  Proof. intros. apply run_write_all_loop. Qed.

  Lemma run_flush_internal : forall (W : a_writer S T) fuel (s : writer_state S Q),
    run (a_flush_internal_buffer W I fuel) s = flush_internal_buffer (blocking_writer W) I fuel s.
  Proof.
    intros W. induction fuel as [|fuel IH]; intros s; [reflexivity|]. cbn [a_flush_internal_buffer flush_internal_buffer].
    unfold a_wq at 1. rstep. rstep. destruct (q_expose_items I (ws_queue s)) as [[q [items|]]| |]; cbn [bind]; try reflexivity.
    rstep. unfold a_ws. rstep. cbn [ws_writer ws_queue]. rewrite run_write_all.
    destruct (write_all _ _ _) as [[s1 [[]|e]]| |]; cbn [bind ws_queue]; try reflexivity.
    unfold a_wq. rstep. rstep. cbn [ws_writer ws_queue]. destruct (q_consider_dequeued _ _ _) as [q1| |]; cbn [bind]; try reflexivity. apply IH.
  Qed.

  Lemma run_flushed : forall (W : a_writer S T) fuel X (k : fut (writer_state S Q) (res X io_error)) k' (s : writer_state S Q),
    (forall s, run k s = k' s) -> run (a_flushed W I fuel k) s = flushed (blocking_writer W) I fuel s k'.
  Proof.
    intros W fuel X k k' s H. unfold a_flushed, flushed. rstep. rewrite run_flush_internal.
    destruct (flush_internal_buffer _ _ _ _) as [[s1 [[]|e]]| |]; cbn [bind]; try reflexivity. apply H.
  Qed.

  Lemma same_writer : forall (W : a_writer S T) fuel,
    same_bulk_consumer (blocking_bulk_consumer (a_writer_consumer W I fuel)) (writer_consumer (blocking_writer W) I fuel).
  Proof.
    intros W fuel. split; [split; [split|]|split; [|split; [|split]]].
    - intros x s. apply run_flushed. intros s1. unfold a_ws. rstep. now rewrite run_write_all.
    - intros f s. apply run_flushed. intros s1. unfold a_ws. rio.
    - intros s. apply run_flushed. intros s1. unfold a_ws. rio.
    - intros s. apply run_flushed. intros s1. unfold a_wq. rio.
    - reflexivity.
    - intros n s. cbn -[await wr_consume_slots a_wr_consume_slots]. unfold a_wr_consume_slots, wr_consume_slots, a_wq. rio.
    - intros buf s. apply run_flushed. intros s1. unfold a_ws. rio.
  Qed.
End RunReaders.

(** ** Pending *)
Section Pending.
  Context {S T : Type} (QQ : bool -> Prop).

  Ltac go := repeat first
    [ assumption
    | lazymatch goal with
      | |- pending_only _ (await _ _) => apply po_await; [|intros]
      | |- pending_only _ (within _ _ _) => apply po_within
      | |- pending_only _ (sync _) => apply po_sync
      | |- pending_only _ (ret _) => apply po_sync
      | |- pending_only _ get => apply po_sync
      | |- pending_only _ (attempt _) => apply po_sync
      | |- pending_only _ out_of_fuel => apply po_sync
      end
    | match goal with |- pending_only _ (match ?x with _ => _ end) => destruct x end ].

  Lemma read_exact_pending : forall (Rd : a_reader S T), reader_pending QQ Rd -> forall fuel done buf, pending_only QQ (a_read_exact_loop Rd fuel done buf).
  Proof.
    intros Rd H. induction fuel as [|fuel IH]; intros done [|b buf]; cbn [a_read_exact_loop]; go; try apply H. apply IH.
  Qed.
  Lemma read_one_pending : forall (Rd : a_reader S T) x0, reader_pending QQ Rd -> pending_only QQ (a_read_one Rd x0).
  Proof. intros Rd x0 H. unfold a_read_one. go. now apply read_exact_pending. Qed.
  Lemma read_some_pending : forall (Rd : a_reader S T) buf, reader_pending QQ Rd -> pending_only QQ (a_read_some Rd buf).
  Proof. intros Rd buf H. unfold a_read_some. go. apply H. Qed.

  Lemma buf_reader_producer_pending : forall (Rd : a_buf_reader S T) x0, buf_reader_pending QQ Rd -> bulk_producer_pending QQ (a_buf_reader_producer Rd x0).
  Proof.
    intros Rd x0 [H1 H2]. split; [split|split; [|split]].
    - now apply read_one_pending.
    - cbn -[await]. unfold a_br_slurp. go.
    - cbn -[await]. unfold a_br_expose_items. go.
    - intros n. cbn -[await]. unfold a_br_consider_produced. go.
    - intros buf. now apply read_some_pending.
  Qed.

  Context {Q : Type} (I : queue Q T).
  Lemma reader_producer_pending : forall (Rd : a_reader S T) x0, reader_pending QQ Rd -> bulk_producer_pending QQ (a_reader_producer Rd I x0).
  Proof.
    intros Rd x0 H. split; [split|split; [|split]].
    - unfold producer_pending. cbn -[await a_rd_produce]. unfold a_rd_produce, a_rq, a_rs. go. now apply read_one_pending.
    - apply po_sync.
    - change (pending_only QQ (a_rd_expose_items Rd I x0)). unfold a_rd_expose_items, a_rq, a_rs. go. apply H.
    - intros n. change (pending_only QQ (a_rd_consider_produced (S := S) I n)). unfold a_rd_consider_produced, a_rq. go.
    - intros buf. cbn -[await a_rd_bulk_produce]. unfold a_rd_bulk_produce, a_rq, a_rs. go. now apply read_some_pending.
  Qed.

  Lemma write_all_pending : forall (W : a_writer S T), writer_pending QQ W -> forall fuel buf, pending_only QQ (a_write_all_loop W fuel buf).
  Proof.
    intros W H. induction fuel as [|fuel IH]; intros [|b buf]; cbn [a_write_all_loop]; go; try apply H. apply IH.
  Qed.
  Lemma flush_internal_pending : forall (W : a_writer S T), writer_pending QQ W -> forall fuel, pending_only QQ (a_flush_internal_buffer W I fuel).
  Proof.
    intros W H. induction fuel as [|fuel IH]; cbn [a_flush_internal_buffer]; unfold a_wq, a_ws; go. now apply write_all_pending.
  Qed.
  Lemma writer_consumer_pending : forall (W : a_writer S T) fuel, writer_pending QQ W -> bulk_consumer_pending QQ (a_writer_consumer W I fuel).
  Proof.
    intros W fuel H.
    assert (HF : forall X (k : fut (writer_state S Q) (res X io_error)), pending_only QQ k -> pending_only QQ (a_flushed W I fuel k)).
    { intros X k Hk. unfold a_flushed. go. now apply flush_internal_pending. }
    split; [split; [split|]|split; [|split]]; intros; cbn -[await]; try apply HF; unfold a_wr_consume_slots, a_wq, a_ws; go; try apply H.
    now apply write_all_pending.
  Qed.
End Pending.

(** ** Counting *)
Section Counting.
  Context {S T : Type} (m : S -> nat).

  Lemma read_exact_counts : forall (Rd : a_reader S T), reader_counts m Rd -> forall fuel done buf, counts m (a_read_exact_loop Rd fuel done buf).
  Proof.
    intros Rd H. induction fuel as [|fuel IH]; intros done [|b buf]; apply counts_all; cbn [a_read_exact_loop]; ca; try (apply counts_one; apply H). apply counts_one. apply IH.
  Qed.
  Lemma read_one_counts : forall (Rd : a_reader S T) x0, reader_counts m Rd -> counts m (a_read_one Rd x0).
  Proof. intros Rd x0 H. apply counts_all. intros s. unfold a_read_one. apply ca_await; [|intros; ca]. apply counts_one. now apply read_exact_counts. Qed.
  Lemma read_some_counts : forall (Rd : a_reader S T) buf, reader_counts m Rd -> counts m (a_read_some Rd buf).
  Proof. intros Rd buf H. apply counts_all. unfold a_read_some. ca. apply counts_one. apply H. Qed.

  Lemma buf_reader_producer_counts : forall (Rd : a_buf_reader S T) x0, buf_reader_counts m Rd -> bulk_producer_counts m (a_buf_reader_producer Rd x0).
  Proof.
    intros Rd x0 (H1 & H2 & H3). split; [split|split; [|split]].
    - now apply read_one_counts.
    - apply counts_all. cbn -[await]. unfold a_br_slurp. ca. now apply counts_one.
    - apply counts_all. cbn -[await]. unfold a_br_expose_items. ca; now apply counts_one.
    - intros n. apply counts_all. cbn -[await]. unfold a_br_consider_produced. ca.
      destruct (ar_consume Rd n s) as [s1| |] eqn:E1; try (intros; discriminate). cbn [bind] in *.
      intros s' x E2. injection E2 as <- _. exact (H3 _ _ _ E1).
    - intros buf. now apply read_some_counts.
  Qed.

  Context {Q : Type} (I : queue Q T).
  Lemma reader_producer_counts : forall (Rd : a_reader S T) x0, reader_counts m Rd ->
    bulk_producer_counts (fun s : reader_state S Q => m (rs_reader s)) (a_reader_producer Rd I x0).
  Proof.
    intros Rd x0 H. split; [split|split; [|split]].
    - apply counts_all. cbn -[await a_rd_produce]. unfold a_rd_produce, a_rq, a_rs. ca_in m. now apply read_one_counts.
    - apply counts_all. cbn -[await]. unfold a_rd_slurp. ca_in m.
    - apply counts_all. cbn -[await a_rd_expose_items]. unfold a_rd_expose_items, a_rq, a_rs. ca_in m. apply H.
    - intros n. apply counts_all. cbn -[await a_rd_consider_produced]. unfold a_rd_consider_produced, a_rq. ca_in m.
    - intros buf. apply counts_all. cbn -[await a_rd_bulk_produce]. unfold a_rd_bulk_produce, a_rq, a_rs. ca_in m. now apply read_some_counts.
  Qed.

  Lemma write_all_counts : forall (W : a_writer S T), writer_counts m W -> forall fuel buf, counts m (a_write_all_loop W fuel buf).
  Proof.
    intros W H. induction fuel as [|fuel IH]; intros [|b buf]; apply counts_all; cbn [a_write_all_loop]; ca; try (apply counts_one; apply H). apply counts_one. apply IH.
  Qed.
  Notation mw := (fun s : writer_state S Q => m (ws_writer s)).
  Lemma flush_internal_counts : forall (W : a_writer S T), writer_counts m W -> forall fuel, counts mw (a_flush_internal_buffer W I fuel).
  Proof.
    intros W H. induction fuel as [|fuel IH]; apply counts_all; cbn [a_flush_internal_buffer]; unfold a_wq, a_ws; ca_in m; try (apply write_all_counts; exact H).
    now apply counts_one.
  Qed.
  Lemma writer_consumer_counts : forall (W : a_writer S T) fuel, writer_counts m W -> bulk_consumer_counts mw (a_writer_consumer W I fuel).
  Proof.
    intros W fuel H.
    assert (HF : forall X (k : fut (writer_state S Q) (res X io_error)), (forall s, counts_at mw k s) -> counts mw (a_flushed W I fuel k)).
    { intros X k Hk. apply counts_all. unfold a_flushed. ca_in m; [|apply Hk]. apply counts_one. now apply flush_internal_counts. }
    split; [split; [split|]|split; [|split; [|split]]]; intros; cbn -[await].
    - apply HF. unfold a_ws. ca_in m. now apply write_all_counts.
    - apply HF. unfold a_ws. ca_in m. apply H.
    - apply HF. unfold a_ws. ca_in m. apply H.
    - apply HF. unfold a_wq. ca_in m.
    - reflexivity.
    - apply counts_all. unfold a_wr_consume_slots, a_wq. ca_in m.
    - apply HF. unfold a_ws. ca_in m. apply H.
  Qed.
End Counting.

(** C95: the adaptors for readers and writers never panic. *)
From Coq Require Import Bool List Arith Lia.
From Verif Require Import Prelude ListFacts QueueModel QueueSpec QueueProofs Traits AdaptorModel Contracts AdaptorSpec SliceModel SliceProofs RulesSpec SafeSpec SafeProofs
  IoModel IoSpec AsyncModel AsyncAdaptorModel AsyncIoModel AsyncIoSpec AsyncSpec AsyncProofs AsyncIoProofs AbideSpec HardySpec HardyProofs PropHardy
  HardyIoSpec HardyIoProofs.
Import ListNotations.

(** ** Readers *)

(** Whatever a reader does short of reporting more bytes than fit into the buffer: the producer around it never panics, even if its callers drop futures. *)
Theorem C95_reader : forall S T Q (Rd : a_reader S T) OK (I : queue Q T) c RQ x0 s q items k w,
  gentle_reader Rd OK -> lawful_queue I c RQ -> 1 <= c -> OK s -> RQ q items k w ->
  hardy_producer true (a_reader_producer Rd I x0) (mk_reader_state s q).
Proof.
  intros S T Q Rd OK I c RQ x0 s q items k w G LQ Hc Hs HR. eapply hardy_p_forget, reader_hardy; [exact LQ|exact G|exact Hc|exact Hs|exact HR].
Qed.
Print Assumptions C95_reader.

Theorem C95_buf_reader : forall S T (Rd : a_buf_reader S T) OK x0 s, gentle_buf_reader Rd OK -> OK s 0 ->
  hardy_producer true (a_buf_reader_producer Rd x0) s.
Proof. intros S T Rd OK x0 s G Hs. exact (buf_reader_hardy x0 G _ _ Hs). Qed.
Print Assumptions C95_buf_reader.

(** ** Writers *)
Theorem C95_writer : forall S T Q (W : a_writer S T) OK (I : queue Q T) c RQ fuel s q items k w,
  gentle_writer W OK -> lawful_queue I c RQ -> 1 <= c -> OK s -> RQ q items k w ->
  hardy_consumer (a_writer_consumer W I fuel) (mk_writer_state s q).
Proof.
  intros S T Q W OK I c RQ fuel s q items k w G LQ Hc Hs HR. eapply hardy_c_forget, writer_hardy; [exact G|exact LQ|exact Hc|exact Hs|exact HR].
Qed.
Print Assumptions C95_writer.

(** ** Without waiting *)
Theorem C95_calm :
  (forall S T Q (Rd : reader S T) OK (I : queue Q T) c RQ x0 s q items k w, calm_reader Rd OK -> lawful_queue I c RQ -> 1 <= c -> OK s -> RQ q items k w ->
     calm_producer true (reader_producer Rd I x0) (mk_reader_state s q)) /\
  (forall S T (Rd : buf_reader S T) OK x0 s, calm_buf_reader Rd OK -> OK s 0 -> calm_producer true (buf_reader_producer Rd x0) s) /\
  (forall S T Q (W : writer S T) OK (I : queue Q T) c RQ fuel s q items k w, calm_writer W OK -> lawful_queue I c RQ -> 1 <= c -> OK s -> RQ q items k w ->
     calm_consumer (writer_consumer W I fuel) (mk_writer_state s q)).
Proof.
  split; [|split].
  - intros S T Q Rd OK I c RQ x0 s q items k w G LQ Hc Hs HR. exact (@reader_calm _ _ Rd OK x0 _ I c RQ G LQ Hc s q items k w Hs HR).
  - intros S T Rd OK x0 s G Hs. exact (buf_reader_calm x0 G _ _ Hs).
  - intros S T Q W OK I c RQ fuel s q items k w G LQ Hc Hs HR. exact (@writer_calm _ _ W OK fuel _ I c RQ G LQ Hc s q items k w Hs HR).
Qed.
Print Assumptions C95_calm.

(** Running out of fuel is not a panic; but it does not happen either, if there is more fuel than room in the queue. *)
Theorem C95_writer_returns : forall S T Q (W : writer S T) OK (I : queue Q T) c RQ fuel s q items k w o,
  calm_writer W OK -> lawful_queue I c RQ -> 1 <= c -> c < fuel ->
  (forall s, OK s -> (forall buf, w_write W buf s <> NoFuel) /\ w_flush W s <> NoFuel /\ w_close W s <> NoFuel) ->
  OK s -> RQ q items k w -> c_calls (mk_cmon false k (length w)) o = true ->
  exists x, c_do (writer_consumer W I fuel) o (mk_writer_state s q) = Ret x.
Proof.
  intros S T Q W OK I c RQ fuel s q items k w o G LQ Hc Hf N Hs HR Ho.
  destruct (@writer_returns S Q T W OK I c RQ G LQ (fun buf s Hs => proj1 (N s Hs) buf) (fun s Hs => proj1 (proj2 (N s Hs))) (fun s Hs => proj2 (proj2 (N s Hs)))
    fuel Hc Hf s q items k w o Hs HR Ho) as (x & E & _). exists x. exact E.
Qed.
Print Assumptions C95_writer_returns.

(** Bulk methods keep the length of the buffer and count honestly, as long as the reader or the writer does. *)
Theorem C95_lengths :
  (forall S T Q (Rd : a_reader S T) (I : queue Q T) x0, (forall buf s s' buf' r, run (ar_read Rd buf) s = Ret (s', (buf', r)) -> length buf' = length buf) ->
     keeps_length (blocking_bulk_producer (a_reader_producer Rd I x0))) /\
  (forall S T (Rd : a_buf_reader S T) x0, (forall buf s s' buf' r, run (ar_read Rd buf) s = Ret (s', (buf', r)) -> length buf' = length buf) ->
     keeps_length (blocking_bulk_producer (a_buf_reader_producer Rd x0))) /\
  (forall S T Q (W : a_writer S T) (I : queue Q T) fuel, (forall buf s s' n, run (aw_write W buf) s = Ret (s', Ok n) -> n <= length buf) ->
     honest_count (blocking_bulk_consumer (a_writer_consumer W I fuel))).
Proof.
  split; [|split].
  - intros S T Q Rd I x0 H buf s s' buf' r E. rewrite (proj2 (proj2 (proj2 (same_reader I Rd x0)))) in E.
    exact (@reader_keeps_length S T Q (blocking_reader Rd) I x0 H _ _ _ _ _ E).
  - intros S T Rd x0 H buf s s' buf' r E. rewrite (proj2 (proj2 (proj2 (same_buf_reader Rd x0)))) in E.
    exact (@buf_reader_keeps_length S T (blocking_buf_reader Rd) x0 H _ _ _ _ _ E).
  - intros S T Q W I fuel H buf s s' n E. rewrite (proj2 (proj2 (proj2 (proj2 (same_writer I W fuel))))) in E.
    exact (@writer_honest_count S T Q (blocking_writer W) I fuel H _ _ _ _ E).
Qed.
Print Assumptions C95_lengths.

(** ** Copying *)

(** Copying everything from any reader to any writer does not panic, however often the copying is polled; if it is dropped, both can be used again unless the
    writer was being closed. *)
Theorem C95_copy : forall SP SC T QP QC (Rd : a_reader SP T) OKP (W : a_writer SC T) OKC (IP : queue QP T) cp RP (IC : queue QC T) cc RC x0 fuel fuel' sp qp itp kp wp sc qc itc kc wc,
  gentle_reader Rd OKP -> gentle_writer W OKC -> (forall buf s s' n, run (aw_write W buf) s = Ret (s', Ok n) -> n <= length buf) ->
  lawful_queue IP cp RP -> 1 <= cp -> lawful_queue IC cc RC -> 1 <= cc -> OKP sp -> RP qp itp kp wp -> OKC sc -> RC qc itc kc wc ->
  let P := a_reader_producer Rd IP x0 in
  let C := a_writer_consumer W IC fuel' in
  endures (pipe_dropped (hardy_producer true P) (hardy_consumer C) C)
    (fun x r => pipe_leaves (fun _ => False) (hardy_producer true P) (hardy_consumer C) (x, r))
    (a_bulk_pipe fuel P C) (mk_reader_state sp qp, mk_writer_state sc qc).
Proof.
  intros SP SC T QP QC Rd OKP W OKC IP cp RP IC cc RC x0 fuel fuel' sp qp itp kp wp sc qc itc kc wc G1 G2 H1 L1 Hc1 L2 Hc2 Hs1 HR1 Hs2 HR2 P C.
  apply C94_pipes.
  - exact (proj2 (proj2 C95_lengths) _ _ _ W IC fuel' H1).
  - exact (C95_reader _ _ _ Rd OKP IP cp RP x0 sp qp itp kp wp G1 L1 Hc1 Hs1 HR1).
  - exact (C95_writer _ _ _ W OKC IC cc RC fuel' sc qc itc kc wc G2 L2 Hc2 Hs2 HR2).
Qed.
Print Assumptions C95_copy.

(** ** Writing to a slice (C43) *)
Theorem C95_into_slice : forall T (l : list T), hardy_consumer (@a_into_slice T) (into_slice_new l).
Proof. exact into_slice_hardy. Qed.
Print Assumptions C95_into_slice.
Example C95_into_slice_ex :
  c_drops (@a_into_slice nat) [(CConsume 7, 1); (CExpose, 0); (CExpose, 1); (CWrite [8; 9], 1); (CConsumeSlots 2, 1); (CBulkConsume [5], 1)] (into_slice_new [0; 0; 0]) =
    Ret [Some (CAUnit (Ok tt)); None; Some (CASlots (Ok 2)); Some CANone; Some (CAUnit (Ok tt)); Some (CANat (Err tt))].
Proof. vm_compute. reflexivity. Qed.

(** ** Examples *)

(** A reader that does what a script says: wait, fail, or give so many sevens (then go on with the script). *)
Inductive mood : Type := Wait | Fails (n : nat) | Gives (n : nat).
Definition moods := list mood.
Definition gives (n : nat) (s : moods) : moods := if n =? 0 then s else Gives n :: s.
Definition moody {X} (now : moods -> outcome (moods * X)) : fut moods X :=
  Fut (fun s => match s with Wait :: s => Ret (s, AsyncModel.Pending true (sync now)) | _ => omap (fun x => (fst x, AsyncModel.Ready (snd x))) (now s) end).
Definition moody_reader : a_reader moods nat :=
  mk_a_reader (fun buf => moody (fun s =>
    match s with
    | [] => Ret ([], (buf, Ok 0))
    | Gives n :: s => let m := Nat.min n (length buf) in Ret (gives (n - m) s, (repeat 7 m ++ skipn m buf, Ok m))
    | Fails n :: s => Ret (s, (buf, Err (mk_io_error (OtherKind n) 0)))
    | Wait :: s => Ret (s, (buf, Err (mk_io_error (OtherKind 0) 1)))
    end)).
Definition moody_buf_reader : a_buf_reader moods nat :=
  mk_a_buf_reader moody_reader
    (moody (fun s =>
       match s with
       | [] => Ret ([], Ok [])
       | Gives n :: _ => Ret (s, Ok (repeat 7 n))
       | Fails n :: s => Ret (s, Err (mk_io_error (OtherKind n) 0))
       | Wait :: s => Ret (s, Err (mk_io_error (OtherKind 0) 1))
       end))
    (fun n s => match s with Gives m :: s => if n <=? m then Ret (gives (m - n) s) else Panic | _ => if n =? 0 then Ret s else Panic end).
(** A writer that accepts as many bytes as the script says. *)
Definition moody_writer : a_writer moods nat :=
  mk_a_writer
    (fun buf => moody (fun s =>
       match s with
       | [] => Ret ([], Ok 0)
       | Gives n :: s => let m := Nat.min n (length buf) in Ret (gives (n - m) s, Ok m)
       | Fails n :: s => Ret (s, Err (mk_io_error (OtherKind n) 0))
       | Wait :: s => Ret (s, Err (mk_io_error (OtherKind 0) 1))
       end))
    (moody (fun s => Ret (s, Ok tt))) (moody (fun s => Ret (s, Ok tt))).

Lemma moody_endures : forall X (D : moods -> Prop) (Q : moods -> X -> Prop) now s, D s -> D (tl s) -> (forall s', s' = s \/ s' = tl s -> safely (fun x => Q (fst x) (snd x)) (now s')) ->
  endures D Q (moody now) s.
Proof.
  intros X D Q now s H1 H2 H3. apply op_endures. split; [exact H1|]. unfold moody. cbn. destruct s as [|[|n|n] s].
  - specialize (H3 [] (or_introl eq_refl)). destruct (now []) as [[s' x]| |]; exact H3.
  - split; [exact H2|]. apply op_sync. exact (H3 s (or_intror eq_refl)).
  - specialize (H3 _ (or_introl eq_refl)). destruct (now (Fails n :: s)) as [[s' x]| |]; exact H3.
  - specialize (H3 _ (or_introl eq_refl)). destruct (now (Gives n :: s)) as [[s' x]| |]; exact H3.
Qed.
Lemma read_length : forall n (buf : list nat), length (repeat 7 (Nat.min n (length buf)) ++ skipn (Nat.min n (length buf)) buf) = length buf.
Proof. intros n buf. rewrite app_length, repeat_length, skipn_length. lia. Qed.

Lemma moody_reader_gentle : gentle_reader moody_reader (fun _ => True).
Proof.
  intros buf s _. apply moody_endures; auto. intros s' _. destruct s' as [|[|n|n] s']; cbn -[Nat.min]; split; cbn [fst snd]; try discriminate; auto.
  - intros n [= <-]. split; [lia|auto].
  - apply read_length.
  - intros m [= <-]. split; [lia|auto].
Qed.
Definition shows (s : moods) (k : nat) : Prop := match s with Gives m :: _ => k <= m | _ => k = 0 end.
Lemma shows_0 : forall s, shows s 0.
Proof. intros [|[|n|n] s]; cbn; auto with arith. Qed.
Lemma shows_gives : forall n s k, k <= n -> shows (gives n s) k.
Proof. intros n s k H. unfold gives. destruct (Nat.eqb_spec n 0); [|exact H]. replace k with 0 by lia. apply shows_0. Qed.
(** The buffered reader may wait only if nothing is on display. *)
Lemma moody_buf_reader_gentle : gentle_buf_reader moody_buf_reader shows.
Proof.
  constructor.
  - intros buf s k H. cbn [moody_buf_reader ar_reader moody_reader ar_read]. destruct s as [|[|n|n] s].
    + cbn in H. subst k. apply moody_endures; cbn [tl]; auto using shows_0. intros s' Hs. assert (s' = []) by now destruct Hs. subst s'. cbn. split; [reflexivity|].
      intros n [= <-]. split; [lia|congruence].
    + cbn in H. subst k. apply moody_endures; cbn [tl]; auto using shows_0. intros s' _. destruct s' as [|[|n|n] s']; cbn -[Nat.min]; split; cbn [fst snd]; try discriminate; auto using read_length.
      * intros n [= <-]. split; [lia|congruence].
      * intros m [= <-]. split; [lia|]. intros _. apply shows_gives. lia.
    + apply op_endures. split; [apply shows_0|]. cbn. split; [reflexivity|discriminate].
    + apply op_endures. split; [apply shows_0|]. cbn -[Nat.min]. split; [apply read_length|]. cbn in H. intros m [= <-]. split; [lia|]. intros _. apply shows_gives. lia.
  - intros s k H. cbn [moody_buf_reader ar_fill_buf]. destruct s as [|[|n|n] s].
    + cbn in H. subst k. apply moody_endures; cbn [tl]; auto using shows_0. intros s' Hs. assert (s' = []) by now destruct Hs. subst s'. cbn.
      intros ys [= <-]. split; [lia|]. reflexivity.
    + cbn in H. subst k. apply moody_endures; cbn [tl]; auto using shows_0. intros s' _. destruct s' as [|[|n|n] s']; cbn; try discriminate.
      * intros ys [= <-]. split; [lia|]. reflexivity.
      * intros ys [= <-]. rewrite repeat_length. auto with arith.
    + apply op_endures. split; [apply shows_0|]. cbn. discriminate.
    + apply op_endures. split; [apply shows_0|]. cbn. cbn in H. intros ys [= <-]. rewrite repeat_length. auto.
  - intros s k n H Hn. cbn. destruct s as [|[|m|m] s]; cbn in H.
    + subst k. apply Nat.le_0_r in Hn. subst n. reflexivity.
    + subst k. apply Nat.le_0_r in Hn. subst n. reflexivity.
    + subst k. apply Nat.le_0_r in Hn. subst n. reflexivity.
    + destruct (Nat.leb_spec n m); [|lia]. cbn. apply shows_gives. lia.
Qed.
Lemma moody_writer_gentle : gentle_writer moody_writer (fun _ => True).
Proof.
  constructor; intros; apply moody_endures; auto.
  - intros s' _. destruct s' as [|[|n|n] s']; cbn -[Nat.min]; intros m E; try discriminate E; injection E as <-; split; auto; lia.
  - intros s' _. cbn. auto.
Qed.

(** The caller drops the first call after one poll, and later misses no byte; the failure ends the reader. *)
Example C95_reader_ex :
  let s := mk_reader_state [Wait; Gives 4; Wait; Gives 1; Fails 9] (fixed_new_with_manual_tmps 3 (fun _ => 0)) in
  hardy_producer true (a_reader_producer moody_reader (fixed_queue nat) 0) s /\
  p_drops (a_reader_producer moody_reader (fixed_queue nat) 0)
    [(PExpose, 1); (PExpose, 1); (PConsider 2, 1); (PBulkProduce [0; 0], 1); (PProduce, 1); (PProduce, 1); (PProduce, 1); (PExpose, 1)] s =
    Ret [None; Some (PASlice (Ok (inl [7; 7; 7]))); Some (PAUnit (Ok tt)); Some (PABuf [7; 0] (Ok (inl 1))); Some (PAItem (Ok (inl 7))); None;
         Some (PAItem (Ok (inl 7))); Some (PASlice (Err (mk_io_error (OtherKind 9) 0)))].
Proof.
  split; [|vm_compute; reflexivity].
  eapply C95_reader; [exact moody_reader_gentle|apply (fixed_lawful 3)|lia|exact Logic.I|apply fixed_new_R; lia].
Qed.
Example C95_buf_reader_ex :
  let s := [Wait; Gives 4; Wait; Fails 9] in
  hardy_producer true (a_buf_reader_producer moody_buf_reader 0) s /\
  p_drops (a_buf_reader_producer moody_buf_reader 0) [(PSlurp, 1); (PExpose, 1); (PConsider 2, 1); (PProduce, 1); (PBulkProduce [0; 0], 1); (PExpose, 1); (PExpose, 1)] s =
    Ret [None; Some (PASlice (Ok (inl [7; 7; 7; 7]))); Some (PAUnit (Ok tt)); Some (PAItem (Ok (inl 7))); Some (PABuf [7; 0] (Ok (inl 1))); None;
         Some (PASlice (Err (mk_io_error (OtherKind 9) 0)))].
Proof. split; [|vm_compute; reflexivity]. eapply C95_buf_reader; [exact moody_buf_reader_gentle|apply shows_0]. Qed.
(** Dropping [flush] leaves the bytes in the queue. *)
Example C95_writer_ex :
  let s := mk_writer_state [Wait; Gives 1; Wait; Gives 3; Fails 9] (fixed_new_with_manual_tmps 3 (fun _ => 0)) in
  hardy_consumer (a_writer_consumer moody_writer (fixed_queue nat) 4) s /\
  c_drops (a_writer_consumer moody_writer (fixed_queue nat) 4)
    [(CExpose, 1); (CWrite [1; 2], 1); (CConsumeSlots 2, 1); (CFlush, 1); (CFlush, 1); (CConsume 5, 1); (CBulkConsume [6; 7], 1)] s =
    Ret [Some (CASlots (Ok 3)); Some CANone; Some (CAUnit (Ok tt)); None; None; Some (CAUnit (Ok tt)); Some (CANat (Err (mk_io_error (OtherKind 9) 0)))].
Proof.
  split; [|vm_compute; reflexivity].
  eapply C95_writer; [exact moody_writer_gentle|apply (fixed_lawful 3)|lia|exact Logic.I|apply fixed_new_R; lia].
Qed.
(** Copying through queues of three and two bytes: after three polls three bytes have been read, and the writer has accepted two of them; the writer fails in the end. *)
Definition copy_ex : fut (reader_state moods (fixed nat) * writer_state moods (fixed nat)) (res unit (pipe_error io_error io_error)) :=
  a_bulk_pipe 20 (a_reader_producer moody_reader (fixed_queue nat) 0) (a_writer_consumer moody_writer (fixed_queue nat) 4).
Definition copy_start : reader_state moods (fixed nat) * writer_state moods (fixed nat) :=
  (mk_reader_state [Wait; Gives 4; Wait; Gives 1] (fixed_new_with_manual_tmps 3 (fun _ => 0)),
   mk_writer_state [Wait; Gives 2; Wait; Gives 2; Fails 9] (fixed_new_with_manual_tmps 2 (fun _ => 0))).
Example C95_copy_ex :
  let P := a_reader_producer moody_reader (fixed_queue nat) 0 in
  let C := a_writer_consumer moody_writer (fixed_queue nat) 4 in
  endures (pipe_dropped (hardy_producer true P) (hardy_consumer C) C)
    (fun x r => pipe_leaves (fun _ => False) (hardy_producer true P) (hardy_consumer C) (x, r)) copy_ex copy_start /\
  omap (fun x => (rs_reader (fst (fst x)), ws_writer (snd (fst x)), match snd x with AsyncModel.Ready r => Some r | _ => None end)) (polls 3 copy_ex copy_start) =
    Ret ([Gives 1; Wait; Gives 1], [Gives 2; Fails 9], None) /\
  omap (fun x => (rs_reader (fst (fst x)), ws_writer (snd (fst x)), match snd x with AsyncModel.Ready r => Some r | _ => None end)) (polls 20 copy_ex copy_start) =
    Ret ([], [], Some (Err (PipeConsumer (mk_io_error (OtherKind 9) 0)))).
Proof.
  split; [|split; vm_compute; reflexivity].
  apply C95_copy with (OKP := fun _ => True) (OKC := fun _ => True) (cp := 3) (RP := fixed_R 3) (itp := []) (kp := 0) (wp := []) (cc := 2) (RC := fixed_R 2) (itc := []) (kc := 0) (wc := []);
    auto using moody_reader_gentle, moody_writer_gentle, fixed_lawful; try lia; try (apply fixed_new_R; lia).
  intros buf s s' n H. pose proof (gw_write moody_writer_gentle buf s Logic.I) as G. apply op_endures in G. destruct G as [_ G]. apply op_run in G. destruct G as [_ G].
  rewrite H in G. exact (proj1 (G _ eq_refl)).
Qed.

(** Whoever is gentle is calm when its futures are polled until they are ready. *)
Lemma gentle_calm_reader : forall S T (Rd : a_reader S T) OK, gentle_reader Rd OK -> calm_reader (blocking_reader Rd) OK.
Proof. intros S T Rd OK G buf s Hs. pose proof (G buf s Hs) as H. apply op_endures in H. destruct H as [_ H]. apply op_run in H. exact (proj2 H). Qed.
Lemma gentle_calm_buf_reader : forall S T (Rd : a_buf_reader S T) OK, gentle_buf_reader Rd OK -> calm_buf_reader (blocking_buf_reader Rd) OK.
Proof.
  intros S T Rd OK G. constructor.
  - intros s k Hs. pose proof (gb_fill G _ _ Hs 0) as H. exact H.
  - intros buf s k Hs. pose proof (gb_read G buf _ _ Hs) as H. apply op_endures in H. destruct H as [_ H]. apply op_run in H. exact (proj2 H).
  - intros s k Hs. pose proof (gb_fill G _ _ Hs) as H. apply op_endures in H. destruct H as [_ H]. apply op_run in H. exact (proj2 H).
  - exact (gb_consume G).
Qed.
Lemma gentle_calm_writer : forall S T (W : a_writer S T) OK, gentle_writer W OK -> calm_writer (blocking_writer W) OK.
Proof.
  intros S T W OK G. constructor.
  - intros buf s Hs. pose proof (gw_write G buf _ Hs) as H. apply op_endures in H. destruct H as [_ H]. apply op_run in H. exact (proj2 H).
  - intros s Hs. pose proof (gw_flush G _ Hs) as H. apply op_endures in H. destruct H as [_ H]. apply op_run in H. exact (proj2 H).
  - intros s Hs. pose proof (gw_close G _ Hs) as H. apply op_endures in H. destruct H as [_ H]. apply op_run in H. exact (proj2 H).
Qed.
Example C95_calm_ex :
  calm_producer true (reader_producer (blocking_reader moody_reader) (fixed_queue nat) 0) (mk_reader_state [Gives 4; Fails 9] (fixed_new_with_manual_tmps 3 (fun _ => 0))) /\
  calm_producer true (buf_reader_producer (blocking_buf_reader moody_buf_reader) 0) [Gives 4; Fails 9] /\
  calm_consumer (writer_consumer (blocking_writer moody_writer) (fixed_queue nat) 4) (mk_writer_state [Gives 4; Fails 9] (fixed_new_with_manual_tmps 3 (fun _ => 0))).
Proof.
  split; [|split].
  - eapply C95_calm; [apply gentle_calm_reader, moody_reader_gentle|apply (fixed_lawful 3)|lia|exact Logic.I|apply fixed_new_R; lia].
  - eapply C95_calm; [apply gentle_calm_buf_reader, moody_buf_reader_gentle|apply shows_0].
  - eapply C95_calm; [apply gentle_calm_writer, moody_writer_gentle|apply (fixed_lawful 3)|lia|exact Logic.I|apply fixed_new_R; lia].
Qed.
Lemma moody_writer_fuel : forall s, (forall buf, w_write (blocking_writer moody_writer) buf s <> NoFuel) /\ w_flush (blocking_writer moody_writer) s <> NoFuel /\
  w_close (blocking_writer moody_writer) s <> NoFuel.
Proof. intros s. split; [|split]; [intros buf|..]; cbn; destruct s as [|[|n|n] [|[|m|m] s]]; discriminate. Qed.
(** Three bytes in the queue take three iterations of [write_all], and the last one fails. With less fuel than the queue holds, the model gives up. *)
Example C95_writer_returns_ex :
  let s := mk_writer_state [Gives 1; Wait; Gives 1; Fails 9] (mk_fixed [1; 2; 3] 0 3) in
  (exists x, c_do (writer_consumer (blocking_writer moody_writer) (fixed_queue nat) 4) CFlush s = Ret x) /\
  c_do (writer_consumer (blocking_writer moody_writer) (fixed_queue nat) 4) CFlush s =
    Ret (mk_writer_state [] (mk_fixed [1; 2; 3] 0 3), CAUnit (Err (mk_io_error (OtherKind 9) 0))) /\
  c_do (writer_consumer (blocking_writer moody_writer) (fixed_queue nat) 0) CFlush s = NoFuel.
Proof.
  split; [|split; vm_compute; reflexivity].
  apply C95_writer_returns with (OK := fun _ => True) (c := 3) (RQ := fixed_R 3) (items := [1; 2; 3]) (k := 0) (w := []); auto using fixed_lawful.
  - apply gentle_calm_writer, moody_writer_gentle.
  - intros s _. apply moody_writer_fuel.
  - unfold fixed_R. cbn. splits; auto; try lia. intros [|[|[|i]]] Hi; try reflexivity. lia.
Qed.
Example C95_lengths_ex :
  keeps_length (blocking_bulk_producer (a_reader_producer moody_reader (fixed_queue nat) 0)) /\ keeps_length (blocking_bulk_producer (a_buf_reader_producer moody_buf_reader 0)) /\
  honest_count (blocking_bulk_consumer (a_writer_consumer moody_writer (fixed_queue nat) 4)).
Proof.
  assert (Hl : forall buf s s' buf' r, run (ar_read moody_reader buf) s = Ret (s', (buf', r)) -> length buf' = length buf).
  { intros buf s s' buf' r H. pose proof (gentle_calm_reader _ _ _ _ moody_reader_gentle buf s Logic.I) as G. cbn [blocking_reader r_read] in G. rewrite H in G. exact (proj1 G). }
  split; [|split]; apply C95_lengths; auto.
  intros buf s s' n H. pose proof (cw_write (gentle_calm_writer _ _ _ _ moody_writer_gentle) buf s Logic.I) as G. cbn [blocking_writer w_write] in G.
  rewrite H in G. exact (proj1 (G _ eq_refl)).
Qed.

(** ** The limits of this *)

(** Readers and writers that do not panic, but report one byte more than fits, make the adaptors panic. *)
Definition boasting_reader : buf_reader unit nat := mk_buf_reader (mk_reader (fun buf s => Ret (s, (buf, Ok (length buf + 1))))) (fun s => Ret (s, Ok [1])) (fun n s => Ret s).
Definition boasting_writer : writer unit nat := mk_writer (fun buf s => Ret (s, Ok (length buf + 1))) (fun s => Ret (s, Ok tt)) (fun s => Ret (s, Ok tt)).

Theorem C95_boasting_refuted :
  (exists S (Rd : buf_reader S nat) s, (forall buf s, exists x, r_read Rd buf s = Ret x) /\ (forall s, exists x, r_fill_buf Rd s = Ret x) /\
     (forall n s, exists x, r_consume Rd n s = Ret x) /\ ~ calm_producer false (buf_reader_producer Rd 0) s /\
     ~ calm_producer false (reader_producer Rd (fixed_queue nat) 0) (mk_reader_state s (fixed_new_with_manual_tmps 3 (fun _ => 0)))) /\
  (exists S (W : writer S nat) s, (forall buf s, exists x, w_write W buf s = Ret x) /\ (forall s, exists x, w_flush W s = Ret x) /\ (forall s, exists x, w_close W s = Ret x) /\
     ~ calm_consumer (writer_consumer W (fixed_queue nat) 4) (mk_writer_state s (fixed_new_with_manual_tmps 3 (fun _ => 0)))).
Proof.
  split.
  - exists unit, boasting_reader, tt. splits; try (intros; cbn; eauto; fail).
    + intros H. apply (H [PProduce]). reflexivity.
    + intros H. apply (H [PProduce]). reflexivity.
  - exists unit, boasting_writer, tt. splits; try (intros; cbn; eauto; fail). intros H. apply (H [CConsume 1]). reflexivity.
Qed.
Print Assumptions C95_boasting_refuted.

(** So does a queue without room, which [Fixed::new(0)] makes. *)
Theorem C95_no_room_refuted :
  (exists S (Rd : reader S nat) OK s c, calm_reader Rd OK /\ OK s /\
     ~ calm_producer false (reader_producer Rd (fixed_queue nat) 0) (mk_reader_state s (fixed_new_with_manual_tmps c (fun _ => 0)))) /\
  (exists S (W : writer S nat) OK s c, calm_writer W OK /\ OK s /\
     ~ calm_consumer (writer_consumer W (fixed_queue nat) 4) (mk_writer_state s (fixed_new_with_manual_tmps c (fun _ => 0)))).
Proof.
  split.
  - exists _, (blocking_reader moody_reader), (fun _ => True), [], 0.
    splits; auto; [apply gentle_calm_reader, moody_reader_gentle|]. intros H. apply (H [PExpose]). reflexivity.
  - exists _, (blocking_writer moody_writer), (fun _ => True), [], 0.
    splits; auto; [apply gentle_calm_writer, moody_writer_gentle|]. intros H. apply (H [CExpose]). reflexivity.
Qed.
Print Assumptions C95_no_room_refuted.
(** With [expose_items] it need not panic: the queue of three bytes then holds four, the first of them twice. *)
Example C95_boasting_ex :
  omap snd (obeying (p_calls false) (@p_saw nat unit io_error)
    (p_do (reader_producer (mk_reader (fun buf s => Ret (s, ([1; 2; 3], Ok (length buf + 1))))) (fixed_queue nat) 0)) [PExpose; PConsider 3; PProduce] pmon_new
    (mk_reader_state tt (fixed_new_with_manual_tmps 3 (fun _ => 0)))) =
  Ret [PASlice (Ok (inl [1; 2; 3])); PAUnit (Ok tt); PAItem (Ok (inl 1))].
Proof. vm_compute. reflexivity. Qed.

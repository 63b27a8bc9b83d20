(** Properties C38-C41: adaptors for readers and writers. *)
From Coq Require Import Bool List Arith Lia.
From Verif Require Import Prelude ListFacts QueueModel QueueSpec QueueProofs Traits Contracts ContractFacts AdaptorSpec
  BufferedSpec IoModel IoSpec IoProofs.
Import ListNotations.

(** *** C38. [bs] are the bytes of the reader, [l] is [Ok tt] for end-of-file or the error that it fails
    with; [k] bytes happen to be in the reader's buffer. *)

Theorem C38_buf_reader_conforms :
  forall (S T : Type) (Rd : buf_reader S T) R (x0 : T) s bs l k (ops : list (pop T)),
  lawful_buf_reader Rd R -> R s bs l k -> clean_end l ->
  p_conforms (buf_reader_producer Rd x0) ops s (PActive bs l 0).
Proof.
  intros S T Rd R x0 s bs l k ops L HR HC.
  apply (lawful_p_conforms ops (s := s) (a := PActive bs l 0) (br_lawful x0 L)).
  - left. now apply br_slurp_lawful.
  - split; auto. apply (lb_weaken L 0 HR). lia.
Qed.
Print Assumptions C38_buf_reader_conforms.

Theorem C38_buf_reader_emits :
  forall (S T : Type) (Rd : buf_reader S T) R (x0 : T) s bs l k h s' a',
  lawful_buf_reader Rd R -> R s bs l k -> clean_end l ->
  p_history (buf_reader_producer Rd x0) s (PActive bs l 0) h s' a' ->
  match a' with
  | PEnded => p_emitted [] h = bs /\ p_last h = Some l
  | PActive rest _ k' => p_emitted [] h ++ rest = bs /\ p_last h = None /\ R s' rest l k'
  end.
Proof.
  intros S T Rd R x0 s bs l k h s' a' L HR HC HH.
  pose proof (@p_history_emits _ _ _ _ _ _ _ _ _ _ _ _ (Nat.le_0_l _) HH) as HE. cbn [firstn] in HE.
  assert (HR' : p_rel (br_R R) any_state s' a').
  { eapply lawful_p_history with (4 := HH).
    - apply br_lawful. exact L.
    - left. now apply br_slurp_lawful.
    - split; auto. apply (lb_weaken L 0 HR). lia. }
  destruct a' as [rest l' k'|]; [|exact HE]. destruct HE as (E1 & -> & E2 & _). destruct HR' as [HR' _]. auto.
Qed.
Print Assumptions C38_buf_reader_emits.

(** *** C39. The queue may already hold bytes. *)

Theorem C39_reader_conforms :
  forall (S Q T : Type) (Rd : reader S T) (I : queue Q T) R RQ c (x0 : T) s q items k w bs l (ops : list (pop T)),
  lawful_reader Rd R -> lawful_queue I c RQ -> 1 <= c -> R s bs l -> RQ q items k w -> clean_end l ->
  p_conforms (reader_producer Rd I x0) ops (mk_reader_state s q) (PActive (items ++ bs) l 0).
Proof.
  intros S Q T Rd I R RQ c x0 s q items k w bs l ops L LQ Hc HR HQ HC.
  eapply (lawful_p_conforms ops (s := mk_reader_state s q) (a := PActive (items ++ bs) l 0) (rd_lawful x0 L LQ Hc)).
  - left. apply rd_slurp_lawful.
  - exists items, bs. splits; auto; [|cbn; lia]. exact (lq_forget LQ HQ).
Qed.
Print Assumptions C39_reader_conforms.

Theorem C39_reader_emits :
  forall (S Q T : Type) (Rd : reader S T) (I : queue Q T) R RQ c (x0 : T) s q items k w bs l h st' a',
  lawful_reader Rd R -> lawful_queue I c RQ -> 1 <= c -> R s bs l -> RQ q items k w -> clean_end l ->
  p_history (reader_producer Rd I x0) (mk_reader_state s q) (PActive (items ++ bs) l 0) h st' a' ->
  match a' with
  | PEnded => p_emitted [] h = items ++ bs /\ p_last h = Some l
  | PActive _ _ _ => p_last h = None /\
      exists items' bs', RQ (rs_queue st') items' 0 [] /\ R (rs_reader st') bs' l /\
        p_emitted [] h ++ items' ++ bs' = items ++ bs
  end.
Proof.
  intros S Q T Rd I R RQ c x0 s q items k w bs l h st' a' L LQ Hc HR HQ HC HH.
  pose proof (@p_history_emits _ _ _ _ _ _ _ _ _ _ _ _ (Nat.le_0_l _) HH) as HE. cbn [firstn] in HE.
  assert (HR' : p_rel (rd_R R RQ) any_state st' a').
  { eapply lawful_p_history with (4 := HH).
    - eapply rd_lawful; eauto.
    - left. apply rd_slurp_lawful.
    - exists items, bs. splits; auto; [|cbn; lia]. exact (lq_forget LQ HQ). }
  destruct a' as [rest l' k'|]; [|exact HE]. destruct HE as (E1 & -> & E2 & _). split; auto.
  destruct HR' as (items' & bs' & -> & A & B & _). exists items', bs'. auto.
Qed.
Print Assumptions C39_reader_emits.

(** *** C40. The adaptor runs on a writer that keeps a record of all its calls. [q0] is what the queue
    holds initially. Running out of fuel would be a divergence; it does not happen. *)

Theorem C40_writer_total :
  forall (S Q T : Type) (W : writer S T) (I : queue Q T) RQ c fuel s q q0 (ops : list (cop T unit)),
  lawful_writer W -> lawful_queue I c RQ -> 1 <= c -> c < fuel -> RQ q q0 0 [] ->
  exists st' h calls b', c_trace (writer_consumer (logged W) I fuel) (mk_writer_state (s, []) q) h st' /\
    wa_run c (WActive q0 0 []) h calls b' /\ snd (ws_writer st') = calls /\
    ((map fst h = ops) \/ (exists o ops1 ops2, ops = ops1 ++ o :: ops2 /\ map fst h = ops1 /\ ~ wa_permitted b' o)).
Proof.
  intros S Q T W I RQ c fuel s q q0 ops LW LQ Hc Hf HQ.
  destruct (wr_total LW LQ Hc Hf ops (st := mk_writer_state (s, []) q) (log := []) (b := WActive q0 0 []))
    as (st' & h & calls & b' & A & B & [C _] & D).
  { split; auto. }
  exists st', h, calls, b'. auto.
Qed.
Print Assumptions C40_writer_total.

(** Every history of a rule-respecting caller, call by call. *)
Theorem C40_writer_conforms :
  forall (S Q T : Type) (W : writer S T) (I : queue Q T) RQ c fuel s q q0 h st',
  lawful_writer W -> lawful_queue I c RQ -> 1 <= c -> c < fuel -> RQ q q0 0 [] ->
  c_trace (writer_consumer (logged W) I fuel) (mk_writer_state (s, []) q) h st' -> c_client 0 [] h ->
  exists b', wa_run c (WActive q0 0 []) h (snd (ws_writer st')) b' /\
    match b' with WActive queued k w => RQ (ws_queue st') queued k w | WEnded => True end.
Proof.
  intros S Q T W I RQ c fuel s q q0 h st' LW LQ Hc Hf HQ HT HC.
  destruct (wr_trace LW LQ Hc Hf (log := []) (queued := q0) HT HC) as (calls & b' & A & [B C]); [split; auto|].
  cbn in B. subst calls. exists b'. auto.
Qed.
Print Assumptions C40_writer_conforms.

(** What the writer received and what is still queued is what was consumed. *)
Theorem C40_writer_conserves :
  forall (S Q T : Type) (W : writer S T) (I : queue Q T) RQ c fuel s q q0 h st',
  lawful_writer W -> lawful_queue I c RQ -> 1 <= c -> c < fuel -> RQ q q0 0 [] ->
  c_trace (writer_consumer (logged W) I fuel) (mk_writer_state (s, []) q) h st' -> c_client 0 [] h ->
  Forall (fun p => c_error (snd p) = None) h ->
  exists queued, received (snd (ws_writer st')) ++ queued = q0 ++ c_consumed [] h /\
    ((exists k w, RQ (ws_queue st') queued k w) \/ queued = []).
Proof.
  intros S Q T W I RQ c fuel s q q0 h st' LW LQ Hc Hf HQ HT HC HF.
  destruct (C40_writer_conforms _ _ _ W I RQ c fuel s q q0 h st' LW LQ Hc Hf HQ HT HC) as (b' & A & B).
  exists (wa_queued b'). split; [exact (wa_run_conserves A HF)|].
  destruct b' as [queued k w|]; cbn; [left; eauto|auto].
Qed.
Print Assumptions C40_writer_conserves.

(** After a successful [consume], [flush], [close] or [bulk_consume], everything was received, and
    [flush] and [close] were forwarded. *)
Definition drains {T F} (o : cop T F) : Prop :=
  match o with CConsume _ | CFlush | CClose _ | CBulkConsume _ => True | _ => False end.

Theorem C40_writer_drains :
  forall (S Q T : Type) (W : writer S T) (I : queue Q T) RQ c fuel s q q0 h o r st',
  lawful_writer W -> lawful_queue I c RQ -> 1 <= c -> c < fuel -> RQ q q0 0 [] ->
  c_trace (writer_consumer (logged W) I fuel) (mk_writer_state (s, []) q) (h ++ [(o, r)]) st' ->
  c_client 0 [] (h ++ [(o, r)]) -> drains o -> c_error r = None ->
  received (snd (ws_writer st')) = q0 ++ c_consumed [] (h ++ [(o, r)]) /\
  match o with
  | CFlush => exists log, snd (ws_writer st') = log ++ [WFlush (Ok tt)]
  | CClose _ => exists log, snd (ws_writer st') = log ++ [WClose (Ok tt)]
  | _ => True
  end.
Proof.
  intros S Q T W I RQ c fuel s q q0 h o r st' LW LQ Hc Hf HQ HT HC Hd Hr.
  destruct (C40_writer_conforms _ _ _ W I RQ c fuel s q q0 _ st' LW LQ Hc Hf HQ HT HC) as (b' & A & B).
  destruct (wa_run_snoc _ _ _ A) as (calls1 & calls2 & b1 & EC & A1 & P1 & A2).
  assert (HF : Forall (fun p => c_error (snd p) = None) (h ++ [(o, r)])).
  { destruct b1 as [q1 k1 w1|]; [|contradiction]. apply Forall_app. split.
    - exact (wa_run_no_error A1).
    - repeat constructor. exact Hr. }
  pose proof (wa_run_conserves A HF) as HW.
  destruct b1 as [q1 k1 w1|]; [|contradiction]. unfold wa_answer in A2. rewrite Hr in A2.
  destruct o as [x|f| | |ys|n|buf]; try contradiction; destruct r as [[[]|e]|[m|e]|[m|e]|]; cbn in A2; try contradiction; try discriminate.
  - destruct A2 as (_ & _ & ->). cbn in HW. rewrite app_nil_r in HW. auto.
  - destruct A2 as (ws & -> & _ & _ & ->). cbn [wa_queued] in HW. rewrite app_nil_r in HW. split; auto.
    exists (calls1 ++ ws). rewrite EC. now rewrite app_assoc.
  - destruct A2 as (ws & -> & _ & _ & ->). cbn [wa_queued] in HW. rewrite app_nil_r in HW. split; auto.
    exists (calls1 ++ ws). rewrite EC. now rewrite app_assoc.
  - destruct A2 as (_ & _ & _ & ->). cbn [wa_queued] in HW. rewrite app_nil_r in HW. auto.
Qed.
Print Assumptions C40_writer_drains.

(** An error is that of the last call to the writer; what was received by then is a prefix of what was
    consumed, including what was supplied with the failing call. *)
Theorem C40_writer_error :
  forall (S Q T : Type) (W : writer S T) (I : queue Q T) RQ c fuel s q q0 h o r e st',
  lawful_writer W -> lawful_queue I c RQ -> 1 <= c -> c < fuel -> RQ q q0 0 [] ->
  c_trace (writer_consumer (logged W) I fuel) (mk_writer_state (s, []) q) (h ++ [(o, r)]) st' ->
  c_client 0 [] (h ++ [(o, r)]) -> c_error r = Some e ->
  exists log call, snd (ws_writer st') = log ++ [call] /\ failed_call call e /\
    (forall call' e', In call' log -> ~ failed_call call' e') /\
    exists rest, received (snd (ws_writer st')) ++ rest = q0 ++ c_consumed [] h ++ direct o.
Proof.
  intros S Q T W I RQ c fuel s q q0 h o r e st' LW LQ Hc Hf HQ HT HC Hr.
  destruct (C40_writer_conforms _ _ _ W I RQ c fuel s q q0 _ st' LW LQ Hc Hf HQ HT HC) as (b' & A & B).
  destruct (wa_run_snoc _ _ _ A) as (calls1 & calls2 & b1 & EC & A1 & P1 & A2).
  destruct b1 as [q1 k1 w1|]; [|contradiction].
  pose proof (wa_run_no_error A1) as HF. pose proof (wa_run_conserves A1 HF) as HW. cbn in HW.
  unfold wa_answer in A2. rewrite Hr in A2. destruct A2 as ((pre & call & -> & G & FC) & (rest & ER) & _).
  exists (calls1 ++ pre), call. rewrite EC. splits; auto.
  - now rewrite app_assoc.
  - assert (HG : forall (cs : list (wcall T)) b (hh : list (cop T unit * cans io_error)) b2, wa_run c b hh cs b2 ->
        Forall (fun p => c_error (snd p) = None) hh -> forall call' e', In call' cs -> ~ failed_call call' e').
    { clear. intros cs b hh b2 H. induction H as [b|b o r cs b1 hh cs' b2 Hp A H IH]; intros HF call e' Hi; [contradiction|].
      inversion HF as [|? ? Hn HF']; subst. cbn in Hn. apply in_app_iff in Hi. destruct Hi as [Hi|Hi]; [|eapply IH; eauto].
      assert (HGW : forall l : list (wcall T), Forall good_write l -> In call l -> ~ failed_call call e').
      { intros l HFg Hin. rewrite Forall_forall in HFg. specialize (HFg _ Hin). destruct call as [buf [n|]|[|]|[|]]; cbn in *; try contradiction. lia. }
      assert (HGC : forall (l : list (wcall T)) c0, Forall good_write l -> (forall e, ~ failed_call c0 e) -> In call (l ++ [c0]) -> ~ failed_call call e').
      { intros l c0 H1 H2 Hin. apply in_app_iff in Hin. destruct Hin as [Hin|[<-|[]]]; eauto. }
      destruct b as [qq kk ww|]; [|contradiction]. unfold wa_answer in A. rewrite Hn in A.
      destruct o as [x|f| | |ys|n|buf]; destruct r as [[[]|e]|[m|e]|[m|e]|]; cbn in A; try contradiction; try discriminate.
      - destruct A as (G & _). eauto.
      - destruct A as (ws & -> & G & _). eapply HGC; eauto; cbn; auto.
      - destruct A as (ws & -> & G & _). eapply HGC; eauto; cbn; auto.
      - destruct A as (G & _). eauto.
      - destruct A as (-> & _). contradiction.
      - destruct A as (-> & _). contradiction.
      - destruct A as (G & _). eauto. }
    intros call' e' Hi. apply in_app_iff in Hi. destruct Hi as [Hi|Hi]; [eapply HG; eauto|].
    rewrite Forall_forall in G. specialize (G _ Hi). destruct call' as [buf [n|]|[|]|[|]]; cbn in *; try contradiction. lia.
  - exists rest. rewrite received_app, <- app_assoc, ER, app_assoc, HW. now rewrite <- app_assoc.
Qed.
Print Assumptions C40_writer_error.

(** *** C41 *)

(** Reading into an empty buffer reads nothing and answers 0. *)
Definition reads_nothing {S T} (Rd : reader S T) : Prop :=
  forall s, exists s', r_read Rd [] s = Ret (s', ([], Ok 0)).
(** Writing an empty buffer writes nothing and answers 0. *)
Definition writes_nothing {S T} (W : writer S T) : Prop :=
  forall s, exists s', w_write W [] s = Ret (s', Ok 0).

(** With an empty buffer, [bulk_produce] reports the end of every reader, at any time. *)
Theorem C41_buf_reader_empty_buffer :
  forall (S T : Type) (Rd : buf_reader S T) (x0 : T) s, reads_nothing Rd ->
  exists s', p_bulk_produce (buf_reader_producer Rd x0) [] s = Ret (s', ([], Ok (inr tt))).
Proof. intros S T Rd x0 s H. destruct (H s) as (s' & E). exists s'. cbn. now apply read_some_eof. Qed.
Print Assumptions C41_buf_reader_empty_buffer.

Theorem C41_reader_empty_buffer :
  forall (S Q T : Type) (Rd : reader S T) (I : queue Q T) RQ c (x0 : T) s q k w,
  reads_nothing Rd -> lawful_queue I c RQ -> RQ q [] k w ->
  exists st', p_bulk_produce (reader_producer Rd I x0) [] (mk_reader_state s q) = Ret (st', ([], Ok (inr tt))).
Proof.
  intros S Q T Rd I RQ c x0 s q k w H LQ HQ. destruct (H s) as (s' & E). cbn. unfold rd_bulk_produce. cbn.
  rewrite (q_is_empty_nil LQ _ _ _ HQ). rewrite (read_some_eof _ _ _ E). cbn. eauto.
Qed.
Print Assumptions C41_reader_empty_buffer.

(** With an empty buffer, [bulk_consume] fails for every writer, even if nothing is queued. *)
Theorem C41_writer_empty_buffer :
  forall (S Q T : Type) (W : writer S T) (I : queue Q T) RQ c fuel s q k w,
  writes_nothing W -> lawful_queue I c RQ -> RQ q [] k w -> 1 <= fuel ->
  exists st' e, c_bulk_consume (writer_consumer W I fuel) [] (mk_writer_state s q) = Ret (st', Err e) /\ kind e = WriteZero.
Proof.
  intros S Q T W I RQ c fuel s q k w H LQ HQ Hf. destruct (H s) as (s' & E). cbn.
  unfold wr_bulk_consume, flushed. destruct fuel as [|fuel]; [lia|]. cbn.
  rewrite (lq_expose_items_empty LQ HQ). cbn. rewrite E. cbn. eauto.
Qed.
Print Assumptions C41_writer_empty_buffer.

(** A reader failing with [UnexpectedEof]: [produce] reports the final value, everything else the error. *)
Theorem C41_buf_reader_unexpected_eof :
  forall (S T : Type) (Rd : buf_reader S T) R (x0 : T) s e k (buf : list T),
  lawful_buf_reader Rd R -> R s [] (Err e) k -> kind e = UnexpectedEof -> buf <> [] ->
  (exists s', p_produce (buf_reader_producer Rd x0) s = Ret (s', Ok (inr tt))) /\
  (exists s', p_slurp (buf_reader_producer Rd x0) s = Ret (s', Err e)) /\
  (exists s', p_expose (buf_reader_producer Rd x0) s = Ret (s', Err e)) /\
  (exists s', p_bulk_produce (buf_reader_producer Rd x0) buf s = Ret (s', (buf, Err e))).
Proof.
  intros S T Rd R x0 s e k buf L HR He Hb.
  destruct (lb_read_err L [x0] HR) as (s1 & E1); [discriminate|].
  destruct (lb_fill_buf_err L HR) as (s2 & E2). destruct (lb_read_err L buf HR Hb) as (s3 & E3).
  splits.
  - exists s1. cbn. rewrite (read_one_err _ _ _ E1). unfold is_unexpected_eof. now rewrite He.
  - exists s2. cbn. unfold br_slurp. now rewrite E2.
  - exists s2. cbn. unfold br_expose_items. now rewrite E2.
  - exists s3. cbn. now apply read_some_err.
Qed.
Print Assumptions C41_buf_reader_unexpected_eof.

Theorem C41_reader_unexpected_eof :
  forall (S Q T : Type) (Rd : reader S T) (I : queue Q T) R RQ c (x0 : T) s q e k w (buf : list T),
  lawful_reader Rd R -> lawful_queue I c RQ -> 1 <= c -> R s [] (Err e) -> RQ q [] k w ->
  kind e = UnexpectedEof -> buf <> [] ->
  (exists st', p_produce (reader_producer Rd I x0) (mk_reader_state s q) = Ret (st', Ok (inr tt))) /\
  (exists st', p_expose (reader_producer Rd I x0) (mk_reader_state s q) = Ret (st', Err e)) /\
  (exists st', p_bulk_produce (reader_producer Rd I x0) buf (mk_reader_state s q) = Ret (st', (buf, Err e))).
Proof.
  intros S Q T Rd I R RQ c x0 s q e k w buf L LQ Hc HR HQ He Hb.
  destruct (lr_read_err L [x0] HR) as (s1 & E1); [discriminate|].
  destruct (lr_read_err L buf HR Hb) as (s3 & E3).
  splits.
  - cbn. unfold rd_produce. cbn. rewrite (lq_dequeue_empty LQ HQ). cbn.
    rewrite (read_one_err _ _ _ E1). unfold is_unexpected_eof. rewrite He. cbn. eauto.
  - cbn. unfold rd_expose_items. cbn. rewrite (q_is_empty_nil LQ _ _ _ HQ).
    destruct (lq_expose_slots LQ HQ) as (q1 & n & E2 & N1 & N2 & A1); [cbn; lia|]. rewrite E2. cbn.
    destruct (lr_read_err L (repeat x0 n) HR) as (s2 & E4); [destruct n; [lia|discriminate]|]. rewrite E4. cbn. eauto.
  - cbn. unfold rd_bulk_produce. cbn. rewrite (q_is_empty_nil LQ _ _ _ HQ), (read_some_err _ _ _ E3). cbn. eauto.
Qed.
Print Assumptions C41_reader_unexpected_eof.

(** *** Readers and writers for the examples *)

(** A reader with the given bytes and end; [pat] says how much (minus one) it delivers per call. *)
Record chunks : Type := mk_chunks { ch_bytes : list nat; ch_end : res unit io_error; ch_pat : list nat; ch_filled : nat }.

Definition ch_read (buf : list nat) (s : chunks) : outcome (chunks * (list nat * res nat io_error)) :=
  match buf, ch_bytes s with
  | [], _ => Ret (s, ([], Ok 0))
  | _ :: _, [] => Ret (s, (buf, match ch_end s with Ok _ => Ok 0 | Err e => Err e end))
  | _ :: _, bs =>
      let n := Nat.min (length buf) (Nat.min (S (hd 0 (ch_pat s))) (length bs)) in
      Ret (mk_chunks (skipn n bs) (ch_end s) (tl (ch_pat s)) (ch_filled s - n), (firstn n bs ++ skipn n buf, Ok n))
  end.

Definition ch_fill_buf (s : chunks) : outcome (chunks * res (list nat) io_error) :=
  match ch_bytes s with
  | [] => Ret (s, match ch_end s with Ok _ => Ok [] | Err e => Err e end)
  | bs =>
      let n := Nat.max (ch_filled s) (Nat.min (S (hd 0 (ch_pat s))) (length bs)) in
      Ret (mk_chunks bs (ch_end s) (tl (ch_pat s)) n, Ok (firstn n bs))
  end.

Definition ch_consume (n : nat) (s : chunks) : outcome chunks :=
  let* k := csub (ch_filled s) n in Ret (mk_chunks (skipn n (ch_bytes s)) (ch_end s) (ch_pat s) k).

Definition ch_reader : reader chunks nat := mk_reader ch_read.
Definition ch_buf_reader : buf_reader chunks nat := mk_buf_reader ch_reader ch_fill_buf ch_consume.

Definition ch_R (s : chunks) (bs : list nat) (l : res unit io_error) : Prop := ch_bytes s = bs /\ ch_end s = l.
Definition ch_RB (s : chunks) (bs : list nat) (l : res unit io_error) (k : nat) : Prop :=
  ch_bytes s = bs /\ ch_end s = l /\ k <= ch_filled s <= length bs.

Lemma ch_lawful : lawful_reader ch_reader ch_R.
Proof.
  constructor.
  - intros [bs0 l0 pat f] bs l buf [H1 H2] Hb Hf. cbn in H1, H2. subst bs0 l0.
    destruct bs as [|b bs]; [congruence|]. destruct buf as [|x buf]; [congruence|]. cbn -[Nat.min].
    do 2 eexists. split; [reflexivity|]. splits; cbn -[Nat.min]; try lia. split; reflexivity.
  - intros [bs0 l0 pat f] buf [H1 H2] Hf. cbn in H1, H2. subst. destruct buf; [congruence|]. cbn. eauto.
  - intros [bs0 l0 pat f] buf e [H1 H2] Hf. cbn in H1, H2. subst. destruct buf; [congruence|]. cbn. eauto.
Qed.

Lemma ch_buf_lawful : lawful_buf_reader ch_buf_reader ch_RB.
Proof.
  constructor.
  - intros [bs0 l0 pat f] bs l k (H1 & H2 & H3). cbn in *. lia.
  - intros [bs0 l0 pat f] bs l k k' (H1 & H2 & H3) H. unfold ch_RB. cbn in *. splits; auto; lia.
  - intros [bs0 l0 pat f] bs l k buf (H1 & H2 & H3) Hb Hf. cbn in H1, H2, H3. subst bs0 l0.
    destruct bs as [|b bs]; [congruence|]. destruct buf as [|x buf]; [congruence|]. cbn -[Nat.min].
    do 2 eexists. split; [reflexivity|]. cbn [length] in H3. splits; cbn -[Nat.min]; try lia.
    unfold ch_RB. cbn [ch_bytes ch_end ch_filled]. splits; auto; try lia. rewrite skipn_length. cbn [length]. lia.
  - intros [bs0 l0 pat f] buf k (H1 & H2 & H3) Hf. cbn in *. subst. destruct buf; [congruence|]. cbn. eauto.
  - intros [bs0 l0 pat f] buf e k (H1 & H2 & H3) Hf. cbn in *. subst. destruct buf; [congruence|]. cbn. eauto.
  - intros [bs0 l0 pat f] bs l k (H1 & H2 & H3) Hb. cbn in H1, H2, H3. subst bs0 l0.
    destruct bs as [|b bs]; [congruence|]. cbn [ch_buf_reader r_fill_buf]. unfold ch_fill_buf. cbn [ch_bytes ch_filled ch_pat ch_end].
    set (n := Nat.max f (Nat.min (S (hd 0 pat)) (length (b :: bs)))). cbn [length] in H3.
    assert (1 <= n <= length (b :: bs)) by (unfold n; cbn [length]; lia).
    exists (mk_chunks (b :: bs) l (tl pat) n), (firstn n (b :: bs)), (skipn n (b :: bs)).
    assert (length (firstn n (b :: bs)) = n) by (rewrite firstn_length; lia).
    splits; auto.
    + apply firstn_nonempty; [lia|discriminate].
    + symmetry. apply firstn_skipn.
    + unfold n in *. lia.
    + unfold ch_RB. cbn [ch_bytes ch_end ch_filled]. splits; auto; lia.
  - intros [bs0 l0 pat f] k (H1 & H2 & H3). cbn in *. subst. eexists. split; [reflexivity|]. unfold ch_RB. cbn. splits; auto; lia.
  - intros [bs0 l0 pat f] e k (H1 & H2 & H3). cbn in *. subst. eexists. reflexivity.
  - intros [bs0 l0 pat f] bs l k n (H1 & H2 & H3) Hn. cbn in H1, H2, H3. subst bs0 l0. cbn. unfold ch_consume. cbn.
    rewrite csub_ok by lia. cbn. eexists. split; [reflexivity|]. unfold ch_RB. cbn. rewrite skipn_length. splits; auto; lia.
Qed.

Lemma ch_reads_nothing : reads_nothing ch_reader.
Proof. intros s. eexists. reflexivity. Qed.

(** A writer that accepts at most [S n] bytes for the numbers [n] of a list, and fails when the list is
    used up. *)
Definition sw_write (buf : list nat) (pat : list nat) : outcome (list nat * res nat io_error) :=
  match buf, pat with
  | [], _ => Ret (pat, Ok 0)
  | _, [] => Ret ([], Err (mk_io_error (OtherKind 5) 0))
  | _, n :: pat => Ret (pat, Ok (Nat.min (S n) (length buf)))
  end.
Definition sw_writer : writer (list nat) nat :=
  mk_writer sw_write (fun s => Ret (s, Ok tt)) (fun s => Ret (s, Ok tt)).

Lemma sw_lawful : lawful_writer sw_writer.
Proof.
  constructor.
  - intros pat buf. cbn. unfold sw_write. destruct buf, pat; do 2 eexists; (split; [reflexivity|]); cbn -[Nat.min]; auto; lia.
  - intros s. eexists. eexists. reflexivity.
  - intros s. eexists. eexists. reflexivity.
Qed.

(** *** Examples *)
Definition ex_err : io_error := mk_io_error (OtherKind 3) 7.
Definition ex_chunks (l : res unit io_error) : chunks := mk_chunks [1; 2; 3; 4; 5; 6; 7] l [1; 1; 0; 2; 1] 0.

Example C38_example :
  let h := [(PProduce, PAItem (Ok (inl 1))); (PSlurp, PAUnit (Ok tt)); (PExpose, PASlice (Ok (inl [2; 3; 4])));
    (PConsider 1, PAUnit (Ok tt)); (PProduce, PAItem (Ok (inl 3))); (PConsider 1, PAUnit (Ok tt));
    (PBulkProduce [0; 0; 0], PABuf [5; 0; 0] (Ok (inl 1))); (PExpose, PASlice (Ok (inl [6])));
    (PConsider 1, PAUnit (Ok tt)); (PProduce, PAItem (Ok (inl 7))); (PSlurp, PAUnit (Ok tt)); (PBulkProduce [0], PABuf [0] (Ok (inr tt)))] in
  (exists s', p_history (buf_reader_producer ch_buf_reader 0) (ex_chunks (Ok tt)) (PActive [1; 2; 3; 4; 5; 6; 7] (Ok tt) 0) h s' PEnded) /\
  lawful_buf_reader ch_buf_reader ch_RB /\ ch_RB (ex_chunks (Ok tt)) [1; 2; 3; 4; 5; 6; 7] (Ok tt) 0.
Proof. cbn zeta. splits; [eexists; run_p|exact ch_buf_lawful|]. unfold ch_RB. cbn. splits; auto; lia. Qed.

Example C39_example :
  let h := [(PProduce, PAItem (Ok (inl 8))); (PExpose, PASlice (Ok (inl [9]))); (PConsider 1, PAUnit (Ok tt));
    (PExpose, PASlice (Ok (inl [1]))); (PConsider 1, PAUnit (Ok tt)); (PExpose, PASlice (Ok (inl [2; 3])));
    (PConsider 1, PAUnit (Ok tt)); (PBulkProduce [0; 0; 0], PABuf [3; 0; 0] (Ok (inl 1)));
    (PExpose, PASlice (Ok (inl [4]))); (PConsider 1, PAUnit (Ok tt)); (PBulkProduce [0; 0], PABuf [5; 6] (Ok (inl 2)));
    (PProduce, PAItem (Ok (inl 7))); (PExpose, PASlice (Err ex_err))] in
  (exists st', p_history (reader_producer ch_reader (fixed_queue nat) 0)
    (mk_reader_state (ex_chunks (Err ex_err)) (mk_fixed [8; 9; 0] 0 2))
    (PActive [8; 9; 1; 2; 3; 4; 5; 6; 7] (Err ex_err) 0) h st' PEnded) /\
  ch_R (ex_chunks (Err ex_err)) [1; 2; 3; 4; 5; 6; 7] (Err ex_err) /\ clean_end (Err ex_err) /\
  fixed_R 3 (mk_fixed [8; 9; 0] 0 2) [8; 9] 0 [].
Proof.
  cbn zeta. splits; [eexists; run_p|split; reflexivity|discriminate|].
  unfold fixed_R. cbn. splits; auto; try lia. intros [|[|i]] Hi; try reflexivity. lia.
Qed.

Definition ex_writer (pat : list nat) : writer_state (list nat * list (wcall nat)) (fixed nat) :=
  mk_writer_state (pat, []) (fixed_new 0 3).

Example C40_example :
  let h := [(CConsume 1, CAUnit (Ok tt)); (CExpose, CASlots (Ok 3)); (CWrite [2; 3; 4], CANone); (CConsumeSlots 2, CAUnit (Ok tt));
    (CFlush, CAUnit (Ok tt)); (CConsumeSlots 1, CAUnit (Ok tt)); (CBulkConsume [5; 6; 7], CANat (Ok 2)); (CClose tt, CAUnit (Ok tt))] in
  c_client 0 [] h /\
  exists st', c_trace (writer_consumer (logged sw_writer) (fixed_queue nat) 4) (ex_writer [0; 0; 0; 0; 1]) h st' /\
    snd (ws_writer st') = [WWrite [1] (Ok 1); WWrite [2; 3] (Ok 1); WWrite [3] (Ok 1); WFlush (Ok tt); WWrite [4] (Ok 1);
      WWrite [5; 6; 7] (Ok 2); WClose (Ok tt)] /\
    received (snd (ws_writer st')) = [1; 2; 3; 4; 5; 6].
Proof.
  cbn zeta. split; [cbn; repeat split; auto; try lia; congruence|].
  eexists. split; [repeat (eapply c_trace_step; [compute_call|]); constructor|split; reflexivity].
Qed.

Example C40_example_error :
  let h := [(CExpose, CASlots (Ok 3)); (CWrite [2; 3; 4], CANone); (CConsumeSlots 3, CAUnit (Ok tt));
    (CConsume 5, CAUnit (Err (mk_io_error (OtherKind 5) 0)))] in
  c_client 0 [] h /\
  exists st', c_trace (writer_consumer (logged sw_writer) (fixed_queue nat) 4) (ex_writer [1]) h st' /\
    snd (ws_writer st') = [WWrite [2; 3; 4] (Ok 2); WWrite [4] (Err (mk_io_error (OtherKind 5) 0))].
Proof.
  cbn zeta. split; [cbn; repeat split; auto; try lia; congruence|].
  eexists. split; [repeat (eapply c_trace_step; [compute_call|]); constructor|reflexivity].
Qed.

(** *** C41: witnesses *)

(** Bytes remain, but [bulk_produce] reports the end, which single-item production does not. *)
Theorem C41_reader_refuted :
  exists (s : chunks) (q : fixed nat),
    ch_R s [1; 2] (Ok tt) /\ fixed_R 3 q [] 0 [] /\
    (exists st', p_bulk_produce (reader_producer ch_reader (fixed_queue nat) 0) [] (mk_reader_state s q) = Ret (st', ([], Ok (inr tt)))) /\
    (exists st', p_produce (reader_producer ch_reader (fixed_queue nat) 0) (mk_reader_state s q) = Ret (st', Ok (inl 1))) /\
    (exists st', default_bulk_produce (p_expose (reader_producer ch_reader (fixed_queue nat) 0))
       (p_consider (reader_producer ch_reader (fixed_queue nat) 0)) [] (mk_reader_state s q) = Ret (st', ([], Ok (inl 0)))).
Proof.
  exists (mk_chunks [1; 2] (Ok tt) [] 0), (fixed_new 0 3). splits.
  - split; reflexivity.
  - apply fixed_new_R. lia.
  - eexists. reflexivity.
  - eexists. reflexivity.
  - eexists. vm_compute. reflexivity.
Qed.
Print Assumptions C41_reader_refuted.

Theorem C41_writer_refuted :
  exists (s : list nat) (q : fixed nat),
    lawful_writer sw_writer /\ fixed_R 3 q [] 0 [] /\
    (exists st', c_bulk_consume (writer_consumer sw_writer (fixed_queue nat) 4) [] (mk_writer_state s q)
       = Ret (st', Err (mk_io_error WriteZero 1))) /\
    (exists st', c_consume (writer_consumer sw_writer (fixed_queue nat) 4) 1 (mk_writer_state s q) = Ret (st', Ok tt)) /\
    (exists st', default_bulk_consume (c_expose (writer_consumer sw_writer (fixed_queue nat) 4))
       (c_write (writer_consumer sw_writer (fixed_queue nat) 4))
       (c_consume_slots (writer_consumer sw_writer (fixed_queue nat) 4)) [] (mk_writer_state s q) = Ret (st', Ok 0)).
Proof.
  exists [5; 5], (fixed_new 0 3). splits.
  - exact sw_lawful.
  - apply fixed_new_R. lia.
  - eexists. reflexivity.
  - eexists. reflexivity.
  - eexists. vm_compute. reflexivity.
Qed.
Print Assumptions C41_writer_refuted.

(** Whether a failing reader looks as if it had ended depends on the method. *)
Theorem C41_unexpected_eof_refuted :
  exists (s : chunks) (e : io_error), kind e = UnexpectedEof /\ ch_RB s [] (Err e) 0 /\
    (exists s', p_produce (buf_reader_producer ch_buf_reader 0) s = Ret (s', Ok (inr tt))) /\
    (exists s', p_expose (buf_reader_producer ch_buf_reader 0) s = Ret (s', Err e)).
Proof.
  exists (mk_chunks [] (Err (mk_io_error UnexpectedEof 9)) [] 0), (mk_io_error UnexpectedEof 9). splits; auto.
  - unfold ch_RB. cbn. splits; auto.
  - eexists. reflexivity.
  - eexists. reflexivity.
Qed.
Print Assumptions C41_unexpected_eof_refuted.

(** A queue of capacity 0 has no slots to offer, and [unwrap] panics: C39 and C40 need capacity 1. *)
Example C39_capacity_zero : forall st, rs_queue st = mk_fixed [] 0 0 ->
  p_expose (reader_producer ch_reader (fixed_queue nat) 0) st = Panic.
Proof. intros [s q] H. cbn in H. subst q. reflexivity. Qed.

Example C40_capacity_zero : forall fuel s, 1 <= fuel ->
  c_expose (writer_consumer sw_writer (fixed_queue nat) fuel) (mk_writer_state s (mk_fixed [] 0 0)) = Panic.
Proof. intros [|fuel] s H; [lia|]. reflexivity. Qed.

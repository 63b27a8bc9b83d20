(** Properties C65 and C66: piping into writers, and the fuzz targets that send bytes over a connection. *)
From Coq Require Import Bool List Arith Lia.
From Verif Require Import Prelude ListFacts QueueModel QueueSpec QueueProofs Traits Contracts PipeSpec PipeProofs
  AdaptorSpec ContractFacts BasicModel BasicSpec BasicProofs ScramblerModel IoModel IoSpec IoProofs PropIo
  FuzzModel FuzzSpec FuzzProofs FuzzIoModel FuzzIoSpec FuzzIoProofs.
Import ListNotations.
Set Warnings "-abstract-large-number".

(** *** C65. The adaptor for a writer that works satisfies the contract of bulk consumers. [q0] is what the queue holds
    initially. *)

Theorem C65_writer_lawful :
  forall (S Q T : Type) (W : writer S T) (I : queue Q T) RQ c fuel,
  working_writer W -> lawful_queue I c RQ -> 1 <= c -> c < fuel ->
  exists R D, lawful_consumer (writer_consumer (logged W) I fuel) (collect_machine T unit io_error) R D /\
    (forall s q q0, RQ q q0 0 [] -> R (mk_writer_state (s, []) q) q0 0 []) /\
    (forall st acc k w, R st acc k w ->
       exists queued, RQ (ws_queue st) queued k w /\ received (snd (ws_writer st)) ++ queued = acc) /\
    (forall st acc, D st acc -> received (snd (ws_writer st)) = acc /\ closed (snd (ws_writer st))).
Proof.
  intros S Q T W I RQ c fuel LW LQ Hc Hf. exists (ww_rel RQ), ww_end. splits.
  - exact (working_writer_lawful LW LQ Hc Hf).
  - intros s q q0 H. exists q0. auto.
  - auto.
  - auto.
Qed.
Print Assumptions C65_writer_lawful.

(** Everything that a producer emits arrives at the writer, which is then closed; if the producer fails, what has not arrived
    is in the queue. *)
Definition piped {S Q T PE} (RQ : Q -> list T -> nat -> list T -> Prop) (all : list T) (l : res unit PE)
    (st : writer_state (S * list (wcall T)) Q) (r : res unit (pipe_error PE io_error)) : Prop :=
  match l with
  | Ok _ => r = Ok tt /\ received (snd (ws_writer st)) = all /\ closed (snd (ws_writer st))
  | Err e => r = Err (PipeProducer e) /\
      exists queued k w, RQ (ws_queue st) queued k w /\ received (snd (ws_writer st)) ++ queued = all
  end.

Lemma pipe_effect_collect : forall T PE (xs : list T) (l : res unit PE) a,
  pipe_effect (collect_machine T unit io_error) xs l a =
  (PEnded, match l with Ok _ => CEnded (a ++ xs) | Err _ => CActive (a ++ xs) 0 [] end,
   match l with Ok _ => Ok tt | Err e => Err (PipeProducer e) end).
Proof. intros. unfold pipe_effect. rewrite collect_feed. destruct l; reflexivity. Qed.

Theorem C65_pipe_into_writer :
  forall (SP S Q T PE : Type) (P : bulk_producer SP T unit PE) RP DP (W : writer S T) (I : queue Q T) RQ c fuel sp xs l k s q q0 kq wq n,
  lawful_producer P RP DP -> RP sp xs l k ->
  working_writer W -> lawful_queue I c RQ -> 1 <= c -> c < fuel -> RQ q q0 kq wq -> length xs < n ->
  (exists sp' st' r, pipe n P (writer_consumer (logged W) I fuel) sp (mk_writer_state (s, []) q) = Ret (sp', st', r) /\
     piped RQ (q0 ++ xs) l st' r) /\
  (exists sp' st' r, bulk_pipe n P (writer_consumer (logged W) I fuel) sp (mk_writer_state (s, []) q) = Ret (sp', st', r) /\
     piped RQ (q0 ++ xs) l st' r).
Proof.
  intros SP S Q T PE P RP DP W I RQ c fuel sp xs l k s q q0 kq wq n LP HP LW LQ Hc Hf HQ Hn.
  pose proof (working_writer_lawful LW LQ Hc Hf) as LC.
  assert (H0 : ww_rel RQ (mk_writer_state (s, []) q) q0 kq wq) by (exists q0; auto).
  assert (HX : forall st : writer_state (S * list (wcall T)) Q, c_rel (ww_rel RQ) ww_end st (match l with Ok _ => CEnded (q0 ++ xs) | Err _ => CActive (q0 ++ xs) 0 [] end) ->
    piped RQ (q0 ++ xs) l st (match l with Ok _ => Ok tt | Err e => Err (PipeProducer e) end)).
  { intros st H. destruct l as [[]|e]; cbn in *.
    - destruct H. auto.
    - destruct H as (queued & H1 & H2). split; auto. exists queued, 0, []. auto. }
  pose proof (@pipe_lawful _ _ _ _ _ _ _ _ _ _ _ _ _ _ LP LC xs n sp l k _ _ _ _ HP H0 Hn) as H1.
  pose proof (@bulk_pipe_lawful _ _ _ _ _ _ _ _ _ _ _ _ _ _ LP LC n xs sp l k _ _ _ _ HP H0 Hn) as H2.
  rewrite pipe_effect_collect in H1, H2. destruct H1 as (sp1 & st1 & E1 & _ & R1). destruct H2 as (sp2 & st2 & p2 & E2 & _ & _ & R2).
  split; eexists _, _, _; (split; [eassumption|]); auto.
Qed.
Print Assumptions C65_pipe_into_writer.

(** From a reader to a writer, through both adaptors: the bytes that were read are written, in order. *)
Theorem C65_copy :
  forall (SR S Q1 Q2 T : Type) (Rd : reader SR T) R (W : writer S T) (I1 : queue Q1 T) (I2 : queue Q2 T) RQ1 RQ2 c1 c2 fuel (x0 : T)
    sr bs q1 s q2 n,
  lawful_reader Rd R -> R sr bs (Ok tt) -> lawful_queue I1 c1 RQ1 -> 1 <= c1 -> RQ1 q1 [] 0 [] ->
  working_writer W -> lawful_queue I2 c2 RQ2 -> 1 <= c2 -> c2 < fuel -> RQ2 q2 [] 0 [] -> length bs < n ->
  exists sp' st', bulk_pipe n (reader_producer Rd I1 x0) (writer_consumer (logged W) I2 fuel)
      (mk_reader_state sr q1) (mk_writer_state (s, []) q2) = Ret (sp', st', Ok tt) /\
    received (snd (ws_writer st')) = bs /\ closed (snd (ws_writer st')).
Proof.
  intros SR S Q1 Q2 T Rd R W I1 I2 RQ1 RQ2 c1 c2 fuel x0 sr bs q1 s q2 n LR HR LQ1 Hc1 H1 LW LQ2 Hc2 Hf H2 Hn.
  assert (HP : rd_R R RQ1 (mk_reader_state sr q1) bs (Ok tt) 0) by (exists [], bs; splits; cbn; auto).
  destruct (C65_pipe_into_writer _ _ _ _ _ _ _ _ W I2 RQ2 c2 fuel _ _ _ _ s q2 [] 0 [] n (rd_lawful x0 LR LQ1 Hc1) HP LW LQ2 Hc2 Hf H2 Hn)
    as (_ & sp' & st' & r & E & -> & H3 & H4). eauto.
Qed.
Print Assumptions C65_copy.

(** A writer that works: it accepts at most [S n] bytes per call, for the numbers [n] of a list. *)
Definition ok_writer : writer (list nat) nat :=
  mk_writer (fun buf pat => Ret (tl pat, Ok (Nat.min (S (hd 0 pat)) (length buf)))) (fun s => Ret (s, Ok tt)) (fun s => Ret (s, Ok tt)).

Lemma ok_works : working_writer ok_writer.
Proof.
  constructor; [constructor|..].
  - intros s buf. do 2 eexists. split; [reflexivity|]. cbn -[Nat.min]. lia.
  - intros s. do 2 eexists. reflexivity.
  - intros s. do 2 eexists. reflexivity.
  - intros s buf H. do 2 eexists. split; [reflexivity|]. destruct buf; [congruence|]. cbn [length]. lia.
  - intros s. eexists. reflexivity.
  - intros s. eexists. reflexivity.
Qed.

Example C65_example :
  exists sp' st', bulk_pipe 8 (reader_producer ch_reader (fixed_queue nat) 0) (writer_consumer (logged ok_writer) (fixed_queue nat) 4)
      (mk_reader_state (ex_chunks (Ok tt)) (fixed_new 0 2)) (mk_writer_state ([1; 0], []) (fixed_new 0 3)) = Ret (sp', st', Ok tt) /\
    snd (ws_writer st') = [WWrite [1; 2] (Ok 2); WWrite [3; 4] (Ok 1); WWrite [4] (Ok 1); WWrite [5] (Ok 1); WWrite [6] (Ok 1);
      WWrite [7] (Ok 1); WClose (Ok tt)].
Proof. do 2 eexists. vm_compute. split; reflexivity. Qed.

(** The hypothesis is needed: with a writer that may fail, errors come late. The slots were consumed successfully, and the
    next call reports the failure. *)
Example C65_example_late :
  lawful_writer sw_writer /\
  exists st', c_trace (writer_consumer (logged sw_writer) (fixed_queue nat) 4) (ex_writer [])
    [(CExpose, CASlots (Ok 3)); (CWrite [2; 3], CANone); (CConsumeSlots 2, CAUnit (Ok tt));
     (CFlush, CAUnit (Err (mk_io_error (OtherKind 5) 0)))] st'.
Proof.
  split; [exact sw_lawful|]. eexists. repeat (eapply c_trace_step; [compute_call|]); constructor.
Qed.

(** *** C66. [delivered]: which bytes the connection delivers, given the calls to the sending end. *)

(** Both targets pass with a connection that delivers what it accepted. *)
Theorem C66_compat_passes :
  forall (S SR : Type) (W : writer S nat) (Rd : reader SR nat) R (transfer : S * list (wcall nat) -> SR) dbg fuel stream input
    scap rcap consume_ops produce_ops,
  working_writer W -> lawful_reader Rd R ->
  (forall s log, closed log -> R (transfer (s, log)) (received log) (Ok tt)) ->
  (forall n, In (ScConsumeSlots n) consume_ops -> 1 <= n) -> (forall n, In (ScConsiderProduced n) produce_ops -> 1 <= n) ->
  Datatypes.S scrambler_capacity * Datatypes.S (length consume_ops) <= fuel ->
  Datatypes.S scrambler_capacity * Datatypes.S (length produce_ops) <= fuel ->
  (dbg = true -> length input <= scrambler_capacity) ->
  fuzz_compat dbg fuel (logged W) Rd transfer (stream, []) input scap rcap consume_ops produce_ops = Ret tt.
Proof.
  intros S SR W Rd R transfer dbg fuel stream input scap rcap cops pops LW LR HT Hn Hp Hf Hfp Hroom.
  destruct (compat_iff LW _ Hn Hf _ Hp Hfp input Hroom LR transfer (@received nat) HT stream scap rcap) as (log & _ & H1 & H2).
  now apply H2.
Qed.
Print Assumptions C66_compat_passes.

Theorem C66_compat_buf_read_passes :
  forall (S SR : Type) (W : writer S nat) (Rd : buf_reader SR nat) R (transfer : S * list (wcall nat) -> SR) dbg fuel stream input
    scap consume_ops produce_ops,
  working_writer W -> lawful_buf_reader Rd R ->
  (forall s log, closed log -> R (transfer (s, log)) (received log) (Ok tt) 0) ->
  (forall n, In (ScConsumeSlots n) consume_ops -> 1 <= n) -> (forall n, In (ScConsiderProduced n) produce_ops -> 1 <= n) ->
  Datatypes.S scrambler_capacity * Datatypes.S (length consume_ops) <= fuel ->
  Datatypes.S scrambler_capacity * Datatypes.S (length produce_ops) <= fuel ->
  (dbg = true -> length input <= scrambler_capacity) ->
  fuzz_compat_buf_read dbg fuel (logged W) Rd transfer (stream, []) input scap consume_ops produce_ops = Ret tt.
Proof.
  intros S SR W Rd R transfer dbg fuel stream input scap cops pops LW LR HT Hn Hp Hf Hfp Hroom.
  destruct (compat_buf_read_iff LW _ Hn Hf _ Hp Hfp input Hroom LR transfer (@received nat) HT stream scap) as (log & _ & H1 & H2).
  now apply H2.
Qed.
Print Assumptions C66_compat_buf_read_passes.

(** With any other connection, they pass exactly if it happens to deliver the input. *)
Theorem C66_compat_catches :
  forall (S SR : Type) (W : writer S nat) (Rd : reader SR nat) R (transfer : S * list (wcall nat) -> SR) delivered dbg fuel stream input
    scap rcap consume_ops produce_ops,
  working_writer W -> lawful_reader Rd R ->
  (forall s log, closed log -> R (transfer (s, log)) (delivered log) (Ok tt)) ->
  (forall n, In (ScConsumeSlots n) consume_ops -> 1 <= n) -> (forall n, In (ScConsiderProduced n) produce_ops -> 1 <= n) ->
  Datatypes.S scrambler_capacity * Datatypes.S (length consume_ops) <= fuel ->
  Datatypes.S scrambler_capacity * Datatypes.S (length produce_ops) <= fuel ->
  (dbg = true -> length input <= scrambler_capacity) ->
  exists log, closed log /\ received log = input /\
    (fuzz_compat dbg fuel (logged W) Rd transfer (stream, []) input scap rcap consume_ops produce_ops = Ret tt <-> delivered log = input).
Proof. intros; eapply compat_iff; eauto. Qed.
Print Assumptions C66_compat_catches.

Theorem C66_compat_buf_read_catches :
  forall (S SR : Type) (W : writer S nat) (Rd : buf_reader SR nat) R (transfer : S * list (wcall nat) -> SR) delivered dbg fuel stream input
    scap consume_ops produce_ops,
  working_writer W -> lawful_buf_reader Rd R ->
  (forall s log, closed log -> R (transfer (s, log)) (delivered log) (Ok tt) 0) ->
  (forall n, In (ScConsumeSlots n) consume_ops -> 1 <= n) -> (forall n, In (ScConsiderProduced n) produce_ops -> 1 <= n) ->
  Datatypes.S scrambler_capacity * Datatypes.S (length consume_ops) <= fuel ->
  Datatypes.S scrambler_capacity * Datatypes.S (length produce_ops) <= fuel ->
  (dbg = true -> length input <= scrambler_capacity) ->
  exists log, closed log /\ received log = input /\
    (fuzz_compat_buf_read dbg fuel (logged W) Rd transfer (stream, []) input scap consume_ops produce_ops = Ret tt <-> delivered log = input).
Proof. intros; eapply compat_buf_read_iff; eauto. Qed.
Print Assumptions C66_compat_buf_read_catches.

(** What passing means for arbitrary code in place of the two ends. *)
Theorem C66_send_means :
  forall (S E : Type) (C : consumer S nat unit E) input s s',
  fuzz_send C input s = Ret s' <-> exists s1, consumes C input s s1 /\ c_close C tt s1 = Ret (s', Ok tt).
Proof. intros. apply fuzz_send_iff. Qed.
Print Assumptions C66_send_means.

Theorem C66_receive_means :
  forall (S E : Type) (P : producer S nat unit E) input s,
  fuzz_receive P input s = Ret tt <-> exists s', answers P s (map (fun x => Ok (inl x)) input ++ [Ok (inr tt)]) s'.
Proof. intros. apply fuzz_receive_iff. Qed.
Print Assumptions C66_receive_means.

(** With debug assertions, longer inputs make both targets panic, as in C63. *)
Theorem C66_debug_panics :
  forall (S SR1 SR2 : Type) (W : writer S nat) (Rd : reader SR1 nat) (Rb : buf_reader SR2 nat) transfer1 transfer2 fuel stream input
    scap rcap consume_ops produce_ops,
  working_writer W -> (forall n, In (ScConsumeSlots n) consume_ops -> 1 <= n) ->
  Datatypes.S scrambler_capacity * Datatypes.S (length consume_ops) <= fuel ->
  scrambler_capacity < length input ->
  fuzz_compat true fuel (logged W) Rd transfer1 (stream, []) input scap rcap consume_ops produce_ops = Panic /\
  fuzz_compat_buf_read true fuel (logged W) Rb transfer2 (stream, []) input scap consume_ops produce_ops = Panic.
Proof.
  intros S SR1 SR2 W Rd Rb transfer1 transfer2 fuel stream input scap rcap cops pops LW Hn Hf Hlen.
  unfold fuzz_compat, fuzz_compat_buf_read. cbv zeta.
  rewrite (compat_send_panics LW _ Hn Hf stream input scap Hlen). split; reflexivity.
Qed.
Print Assumptions C66_debug_panics.

(** A connection that delivers in small pieces what it accepted, and one that loses the last byte. *)
Definition wire : list nat * list (wcall nat) -> chunks := fun '(s, log) => mk_chunks (received log) (Ok tt) [2; 0; 1] 0.
Definition lossy : list nat * list (wcall nat) -> chunks := fun '(s, log) => mk_chunks (removelast (received log)) (Ok tt) [2; 0; 1] 0.

Definition some_cops : list cscr_op := [ScConsume; ScConsumeSlots 2; ScFlush].
Definition some_pops : list pscr_op := [ScProduce; ScConsiderProduced 2; ScSlurp].

Example C66_example :
  fuzz_compat true (S scrambler_capacity * 4) (logged ok_writer) ch_reader wire ([0; 2], []) [4; 5; 6; 7] 3 0 some_cops some_pops = Ret tt /\
  fuzz_compat_buf_read true (S scrambler_capacity * 4) (logged ok_writer) ch_buf_reader wire ([0; 2], []) [4; 5; 6; 7] 3 some_cops some_pops = Ret tt /\
  fuzz_compat true (S scrambler_capacity * 4) (logged ok_writer) ch_reader lossy ([0; 2], []) [4; 5; 6; 7] 3 0 some_cops some_pops <> Ret tt /\
  fuzz_compat_buf_read true (S scrambler_capacity * 4) (logged ok_writer) ch_buf_reader lossy ([0; 2], []) [4; 5; 6; 7] 3 some_cops some_pops <> Ret tt.
Proof.
  assert (H1 : forall n, In (ScConsumeSlots n) some_cops -> 1 <= n).
  { cbn. intros n [H|[H|[H|[]]]]; try discriminate. injection H as <-. lia. }
  assert (H2 : forall n, In (ScConsiderProduced n) some_pops -> 1 <= n).
  { cbn. intros n [H|[H|[H|[]]]]; try discriminate. injection H as <-. lia. }
  assert (H3 : S scrambler_capacity * S (length some_cops) <= S scrambler_capacity * 4) by apply le_n.
  assert (H4 : S scrambler_capacity * S (length some_pops) <= S scrambler_capacity * 4) by apply le_n.
  assert (H5 : true = true -> length [4; 5; 6; 7] <= scrambler_capacity) by (intros _; cbn [length]; unfold scrambler_capacity; lia).
  set (fuel := S scrambler_capacity * 4) in *. set (cops := some_cops) in *. set (pops := some_pops) in *.
  assert (T1 : forall s log, closed log -> ch_R (wire (s, log)) (received log) (Ok tt)) by (split; reflexivity).
  assert (T2 : forall s log, closed log -> ch_RB (wire (s, log)) (received log) (Ok tt) 0) by (intros; unfold ch_RB; cbn; splits; auto; lia).
  assert (T3 : forall s log, closed log -> ch_R (lossy (s, log)) (removelast (received log)) (Ok tt)) by (split; reflexivity).
  assert (T4 : forall s log, closed log -> ch_RB (lossy (s, log)) (removelast (received log)) (Ok tt) 0) by (intros; unfold ch_RB; cbn; splits; auto; lia).
  split; [|split; [|split]].
  - exact (C66_compat_passes _ _ ok_writer ch_reader ch_R wire true fuel [0; 2] [4; 5; 6; 7] 3 0 cops pops ok_works ch_lawful T1 H1 H2 H3 H4 H5).
  - exact (C66_compat_buf_read_passes _ _ ok_writer ch_buf_reader ch_RB wire true fuel [0; 2] [4; 5; 6; 7] 3 cops pops ok_works ch_buf_lawful T2 H1 H2 H3 H4 H5).
  - destruct (C66_compat_catches _ _ ok_writer ch_reader ch_R lossy (fun log => removelast (received log)) true fuel [0; 2] [4; 5; 6; 7] 3 0 cops pops
      ok_works ch_lawful T3 H1 H2 H3 H4 H5) as (log & _ & E & HI). intros H. apply HI in H. rewrite E in H. discriminate.
  - destruct (C66_compat_buf_read_catches _ _ ok_writer ch_buf_reader ch_RB lossy (fun log => removelast (received log)) true fuel [0; 2] [4; 5; 6; 7] 3 cops pops
      ok_works ch_buf_lawful T4 H1 H2 H3 H4 H5) as (log & _ & E & HI). intros H. apply HI in H. rewrite E in H. discriminate.
Qed.

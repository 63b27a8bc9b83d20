(** C103: the texts of [Debug]. *)
From Coq Require Import Bool List Arith ZArith Lia String.
From Verif Require Import Prelude Traits Contracts ContractFacts QueueModel QueueSpec QueueProofs BasicModel AdaptorSpec AdaptorModel ScramblerModel
  ScramblerProofs SliceModel IoModel PublicModel PublicProofs CodecModel EndianModel EndianSpec ErrorModel BufferedSpec BufferedFacts PropScramblers
  PropQueues DebugModel DebugSpec DebugProofs DebugTypesProofs.
Import ListNotations.
Local Open Scope string_scope.

(** *** Reading a text: there is only one tree it can stand for, in either format. *)
Theorem C103_unambiguous :
  forall alternate t t', readable t -> readable t' -> text alternate t = text alternate t' -> t = t'.
Proof. exact text_injective. Qed.
Print Assumptions C103_unambiguous.

(** Without spaces in words this would not hold. *)
Example C103_unreadable_example :
  let t := Listing [Word "1, 2"] in let t' := Listing [Word "1"; Word "2"] in ~ readable t /\ readable t' /\ text false t = text false t'.
Proof.
  cbv zeta. split; [|split; [|reflexivity]].
  - cbn. intros [[_ H] _]. discriminate.
  - cbn. repeat split; discriminate.
Qed.

(** *** The texts, field by field. *)
Theorem C103_producers_and_consumers :
  forall T F E (item : T -> debug) (fin : F -> debug) (err : E -> debug) d df de,
  (forall x, part_writes (item x) (d x)) -> (forall x, part_writes (fin x) (df x)) -> (forall x, part_writes (err x) (de x)) ->
  (forall s, part_writes (debug_public (debug_empty fin) s) (Struct "Empty" [("fin", t_option df (inv_inner s))])) /\
  (forall s, part_writes (debug_public (debug_from_slice item) s)
     (Tuple "FromSlice" [t_list d (fs_slice (inv_inner s)); t_number (fs_offset (inv_inner s))])) /\
  (forall s, part_writes (debug_public (debug_from_boxed_slice item) s)
     (Tuple "FromBoxedSlice" [t_list d (fs_slice (inv_inner s)); t_number (fs_offset (inv_inner s))])) /\
  (forall s, part_writes (debug_public (debug_into_vec item) s)
     (Struct "IntoVec" [("v", t_list d (iv_v (inv_inner s))); ("consumed", t_number (iv_consumed (inv_inner s)))])) /\
  (forall s, part_writes (debug_public (debug_into_slice item) s)
     (Tuple "IntoSlice" [t_list d (is_slice (inv_inner s)); t_number (is_offset (inv_inner s))])) /\
  (forall s, let i := inv_inner (ntp_inner (inv_inner s)) in
     part_writes (debug_public (debug_test_producer item fin err) s)
       (Struct "TestProducer"
          [("inner", Tuple "FromBoxedSlice" [t_list d (fs_slice i); t_number (fs_offset i)]);
           ("last", t_option (t_result df de) (ntp_last (inv_inner s)));
           ("exposed_items_sizes", t_sizes (ntp_sizes (inv_inner s)));
           ("yielder", t_option (fun y => t_yielder (fst y) (snd y)) (option_map (fun y => (y_pattern y, y_index y)) (ntp_yielder (inv_inner s))))])) /\
  (forall s, let i := inv_inner (ntc_inner (inv_inner s)) in
     part_writes (debug_public (debug_test_consumer item fin err) s)
       (Struct "TestConsumer"
          [("inner", Struct "IntoVec" [("v", t_list d (iv_v i)); ("consumed", t_number (iv_consumed i))]);
           ("final", t_option df (ntc_fin (inv_inner s))); ("error", t_option de (ntc_error (inv_inner s)));
           ("operations_until_error", t_number (ntc_left (inv_inner s)));
           ("exposed_slot_sizes", t_sizes (ntc_sizes (inv_inner s)));
           ("yielder", t_option (fun y => t_yielder (fst y) (snd y)) (option_map (fun y => (y_pattern y, y_index y)) (ntc_yielder (inv_inner s))))])).
Proof.
  intros T F E item fin err d df de HI HF HE.
  split; [intros s; now apply empty_part|]. split; [intros s; now apply from_slice_part|]. split; [intros s; now apply from_boxed_slice_part|].
  split; [intros s; now apply into_vec_part|]. split; [intros s; now apply into_slice_part|].
  split; intros s; [now apply test_producer_part|now apply test_consumer_part].
Qed.
Print Assumptions C103_producers_and_consumers.

Theorem C103_adaptors :
  forall S (inner : S -> debug) d,
  (forall s, part_writes (inner s) (d s)) ->
  (forall s, part_writes (debug_invariant inner s) (d (inv_inner s))) /\
  (forall s, part_writes (debug_limit inner s) (Struct "Limit" [("inner", d (lim_inner s)); ("remaining", t_number (lim_remaining s))])) /\
  (forall W (s : map_item S W), part_writes (debug_map_item inner s) (Struct "MapItem" [("inner", d (mi_inner s))])) /\
  (forall G (s : with_fun S G), part_writes (debug_map_final inner s) (Struct "MapFinal" [("inner", d (wf_inner s))])) /\
  (forall G (s : with_fun S G), part_writes (debug_map_error inner s) (Struct "MapError" [("inner", d (wf_inner s))])) /\
  (forall s, part_writes (debug_buf_reader inner s) (Tuple "BufReaderToBulkProducer" [d s])) /\
  forall Q (queue : Q -> debug) dq,
  (forall q, part_writes (queue q) (dq q)) ->
  (forall s, part_writes (debug_reader inner queue s) (Struct "ReaderToBulkProducer" [("reader", d (rs_reader s)); ("queue", dq (rs_queue s))])) /\
  (forall s, part_writes (debug_writer inner queue s) (Struct "WriterToBulkConsumer" [("writer", d (ws_writer s)); ("queue", dq (ws_queue s))])).
Proof.
  intros S inner d H. split; [intros s; apply H|].
  split; [intros s; unfold debug_limit; fields; [apply H|apply number_part]|].
  split; [intros W s; unfold debug_map_item; fields; apply H|].
  split; [intros G s; unfold debug_map_final; fields; apply H|].
  split; [intros G s; unfold debug_map_error; fields; apply H|].
  split; [intros s; unfold debug_buf_reader; parts; apply H|].
  intros Q queue dq HQ. split; intros s; [unfold debug_reader|unfold debug_writer]; fields; try apply H; apply HQ.
Qed.
Print Assumptions C103_adaptors.

Theorem C103_values :
  forall A B C (a : A -> debug) (b : B -> debug) (c : C -> debug) da db dc,
  (forall x, part_writes (a x) (da x)) -> (forall x, part_writes (b x) (db x)) -> (forall x, part_writes (c x) (dc x)) ->
  (forall e, part_writes (debug_pipe_error a b e)
     (match e with PipeProducer x => Tuple "Producer" [da x] | PipeConsumer y => Tuple "Consumer" [db y] end)) /\
  (forall e, part_writes (debug_cale a e) (Struct "ConsumeAtLeastError" [("count", t_number (cale_count e)); ("reason", da (cale_reason e))])) /\
  (forall e, part_writes (debug_pale a b e) (Struct "ProduceAtLeastError"
     [("count", t_number (pale_count e)); ("reason", match pale_reason e with inl x => Tuple "Left" [da x] | inr y => Tuple "Right" [db y] end)])) /\
  (forall e, part_writes (debug_decode_error a b c e)
     (match e with UnexpectedEndOfInput x => Tuple "UnexpectedEndOfInput" [da x] | Producer y => Tuple "Producer" [db y] | Other z => Tuple "Other" [dc z] end)) /\
  (forall x y, part_writes (debug_encoded_pair a b (x, y)) (Struct "EncodedPair" [("actual_value", da x); ("relative_to", db y)])) /\
  (forall x, part_writes (debug_blame x) (Word match x with OurFault => "OurFault" | TheirFault => "TheirFault" end)) /\
  (forall y, part_writes (debug_yielder y) (Struct "TestYielder" [("pattern", t_list t_bool (y_pattern y)); ("index", t_number (y_index y))])) /\
  (forall w v, part_writes (debug_endian w v) (Tuple (announced_name w) [t_integer (num_val v)])).
Proof.
  intros A B C a b c da db dc HA HB HC.
  split; [intros [x|x]; parts; auto|].
  split; [intros e; unfold debug_cale; fields; [apply number_part|apply HA]|].
  split; [intros [n [x|y]]; unfold debug_pale; fields; try apply number_part; cbn; parts; auto|].
  split; [intros [x|x|x]; parts; auto|].
  split; [intros x y; unfold debug_encoded_pair; fields; auto|].
  split; [intros [|]; apply word_part; word|].
  split; [exact yielder_part|].
  intros w v. assert (HN : announced_name w = wrapper_name w) by now destruct w. rewrite HN. unfold debug_endian. apply tuple_part; [destruct w; word| |discriminate]. repeat apply Forall2_cons; [|apply Forall2_nil]. apply word_part, integer_word.
Qed.
Print Assumptions C103_values.

(** The queues, after any permitted calls: the capacity, the number of stored items, and the items, oldest first. *)
Theorem C103_fixed :
  forall T (item : T -> debug) d c (tmp : nat -> T) h q a,
  (forall x, part_writes (item x) (d x)) -> 0 < c ->
  q_history (fixed_queue T) c (fixed_new_with_manual_tmps c tmp) q_empty h q a ->
  part_writes (debug_fixed item q)
    (Struct "Fixed" [("capacity", t_number c); ("len", t_number (List.length (qa_items a))); ("data", t_list d (qa_items a))]).
Proof.
  intros T item d c tmp h q a HI Hc HH. apply (@fixed_part _ item d q c (qa_items a)); [exact HI|].
  exact (fixed_debug_spec (lawful_history (fixed_lawful c) (a := q_empty) (fixed_new_R tmp Hc) HH)).
Qed.
Print Assumptions C103_fixed.

Theorem C103_static :
  forall T (item : T -> debug) d N (tmp : nat -> T) h q a,
  (forall x, part_writes (item x) (d x)) -> 0 < N ->
  q_history (static_queue N) N (static_new_with_manual_tmps N tmp) q_empty h q a ->
  part_writes (debug_static N item q) (Struct "Static" [("len", t_number (List.length (qa_items a))); ("data", t_list d (qa_items a))]).
Proof.
  intros T item d N tmp h q a HI Hc HH. apply static_part; [exact HI|].
  exact (static_debug_spec (lawful_history (static_lawful N) (a := q_empty) (static_new_R tmp Hc) HH)).
Qed.
Print Assumptions C103_static.

(** Two queues with the same text, whatever has been done with them, behave alike from now on: both are first-in-first-out lists with the same
    capacity and the same items. *)
Theorem C103_fixed_tells :
  forall T (item : T -> debug) c1 tmp1 h1 q1 a1 c2 tmp2 h2 q2 a2 alternate s ops,
  clear any eq item -> 0 < c1 -> 0 < c2 ->
  q_history (fixed_queue T) c1 (fixed_new_with_manual_tmps c1 tmp1) q_empty h1 q1 a1 ->
  q_history (fixed_queue T) c2 (fixed_new_with_manual_tmps c2 tmp2) q_empty h2 q2 a2 ->
  debug_fixed item q1 alternate = Ret s -> debug_fixed item q2 alternate = Ret s ->
  c1 = c2 /\ qa_items a1 = qa_items a2 /\
  q_conforms (fixed_queue T) c1 ops q1 (mk_qabs (qa_items a1) 0 []) /\ q_conforms (fixed_queue T) c1 ops q2 (mk_qabs (qa_items a1) 0 []).
Proof.
  intros T item c1 tmp1 h1 q1 a1 c2 tmp2 h2 q2 a2 alternate s ops CI Hc1 Hc2 H1 H2 E1 E2.
  pose proof (lawful_history (fixed_lawful c1) (a := q_empty) (fixed_new_R tmp1 Hc1) H1) as R1.
  pose proof (lawful_history (fixed_lawful c2) (a := q_empty) (fixed_new_R tmp2 Hc2) H2) as R2.
  pose proof (fixed_debug_spec R1) as D1. pose proof (fixed_debug_spec R2) as D2.
  pose proof (@clear_text _ _ _ _ (fixed_clear CI) q1 q2 alternate s (ex_intro _ _ (ex_intro _ _ D1)) (ex_intro _ _ (ex_intro _ _ D2)) E1 E2) as E.
  cbn beta in E. rewrite D1, D2 in E. injection E as <- _ EI. split; [reflexivity|]. split; [exact EI|]. rewrite <- EI in R2.
  split; eapply lawful_conforms; try apply fixed_lawful; eapply lq_forget; eauto using fixed_lawful.
Qed.
Print Assumptions C103_fixed_tells.

Theorem C103_static_tells :
  forall T (item : T -> debug) N tmp1 h1 q1 a1 tmp2 h2 q2 a2 alternate s ops,
  clear any eq item -> 0 < N ->
  q_history (static_queue N) N (static_new_with_manual_tmps N tmp1) q_empty h1 q1 a1 ->
  q_history (static_queue N) N (static_new_with_manual_tmps N tmp2) q_empty h2 q2 a2 ->
  debug_static N item q1 alternate = Ret s -> debug_static N item q2 alternate = Ret s ->
  qa_items a1 = qa_items a2 /\
  q_conforms (@static_queue T N) N ops q1 (mk_qabs (qa_items a1) 0 []) /\ q_conforms (@static_queue T N) N ops q2 (mk_qabs (qa_items a1) 0 []).
Proof.
  intros T item N tmp1 h1 q1 a1 tmp2 h2 q2 a2 alternate s ops CI HN H1 H2 E1 E2. destruct (clearly_elim CI) as (d & I1 & I2).
  destruct (C103_static _ item d N tmp1 h1 q1 a1 I1 HN H1) as [G1 W1]. destruct (C103_static _ item d N tmp2 h2 q2 a2 I1 HN H2) as [G2 W2].
  rewrite (W1 alternate) in E1. rewrite (W2 alternate) in E2. injection E1 as <-. injection E2 as E2. apply text_injective in E2; [|assumption..]. by_fields E2.
  pose proof (list_inj I2 E0) as EI. split; [now symmetry|].
  pose proof (lawful_history (static_lawful N) (a := q_empty) (static_new_R tmp1 HN) H1) as R1.
  pose proof (lawful_history (static_lawful N) (a := q_empty) (static_new_R tmp2 HN) H2) as R2. rewrite EI in R2.
  split; eapply lawful_conforms; try apply static_lawful; eapply lq_forget; eauto using static_lawful.
Qed.
Print Assumptions C103_static_tells.

(** The scramblers show the items that they hold: those read ahead, and those not yet passed on. *)
Theorem C103_producer_scrambler :
  forall (S T F E : Type) (dbg : bool) (P : bulk_producer S T F E) R D (x0 : T) s xs l k pat cap fuel h s' ys l' k'
    (item : T -> debug) (fin : F -> debug) (err : E -> debug) (inner : S -> debug) d df de di,
  lawful_producer_core P R D -> R s xs l k ->
  1 <= cap -> (forall n, In (ScConsiderProduced n) pat -> 1 <= n) ->
  (lawful_slurp P R D \/ ~ In ScSlurp pat) ->
  Datatypes.S cap * Datatypes.S (List.length pat) <= fuel ->
  ~ In PSlurp (map fst h) ->
  p_history (pscr_producer dbg fuel P) (pscr_new_with_capacity x0 s pat cap) (PActive xs l 0) h s' (PActive ys l' k') ->
  (forall x, part_writes (item x) (d x)) -> (forall x, part_writes (fin x) (df x)) -> (forall x, part_writes (err x) (de x)) ->
  part_writes (inner (ps_inner s')) di ->
  exists ahead rest index last,
    xs = (p_emitted [] h ++ ahead ++ rest)%list /\ List.length ahead <= cap /\
    match last with None => exists k2, R (ps_inner s') rest l k2 | Some l2 => l2 = l /\ rest = [] /\ D (ps_inner s') end /\
    part_writes (debug_pscr item fin err inner s')
      (Struct "BulkScrambler"
         [("inner", di);
          ("buffer", Struct "Fixed" [("capacity", t_number cap); ("len", t_number (List.length ahead)); ("data", t_list d ahead)]);
          ("last", t_option (t_result df de) last);
          ("operations", t_list t_pscr_op (ps_operations (pscr_new_with_capacity (F := F) (E := E) x0 s pat cap))); ("operations_index", t_number index)]) /\
    index < List.length (ps_operations (pscr_new_with_capacity (F := F) (E := E) x0 s pat cap)).
Proof.
  intros S T F E dbg P R D x0 s xs l k pat cap fuel h s' ys l' k' item fin err inner d df de di L HR Hc Hn LS Hf Hops HH HI HF HE HD.
  assert (HP : Forall pscr_op_ok pat) by (apply Forall_forall; intros [| |] Hi; cbn; auto).
  assert (HL : lawful_producer (pscr_producer dbg fuel P) (pscr_rel R D cap (pscr_operations pat)) (pscr_end D)).
  { apply (@pscr_lawful _ _ _ _ dbg P R D L cap (pscr_operations pat)).
    + destruct LS as [LS|LS]; [left; exact LS|right]. intros H. apply LS. now apply pscr_operations_slurp.
    + now apply pscr_operations_ok.
    + pose proof (pscr_operations_length pat). nia. }
  assert (HR' : p_rel (pscr_rel R D cap (pscr_operations pat)) (pscr_end D) s' (PActive ys l' k')).
  { eapply lawful_p_history with (4 := HH); [exact HL|now right|]. cbn. eapply pscr_new_rel; eauto. }
  pose proof (p_history_emits (Nat.le_0_l _) HH) as HM. cbn [firstn] in HM. destruct HM as (HM & -> & _).
  destruct HR' as (buf & W & HO & _). pose proof (pscr_wf_cap W) as [_ Hb]. destruct W as (WQ & Wo & Wi).
  assert (HH1 : exists rest, xs = (p_emitted [] h ++ buf ++ rest)%list /\
    match ps_last s' with None => exists k2, R (ps_inner s') rest l k2 | Some l2 => l2 = l /\ rest = [] /\ D (ps_inner s') end).
  { unfold pscr_holds in HO. destruct (ps_last s') as [l2|].
    - destruct HO as (-> & -> & HO). exists []. rewrite List.app_nil_r. auto.
    - destruct HO as (zs & k2 & HZ & ->). exists zs. eauto. }
  destruct HH1 as (rest & G1 & G2).
  exists buf, rest, (ps_index s'), (ps_last s'). split; [exact G1|]. split; [exact Hb|]. split; [exact G2|].
  split; [|exact Wi].
  unfold debug_pscr. rewrite Wo. fields; [exact HD|exact (@fixed_part _ _ _ _ _ _ HI (fixed_debug_spec WQ))|apply option_part; intros r; now apply result_part| |apply number_part].
  apply slice_part, pscr_op_part.
Qed.
Print Assumptions C103_producer_scrambler.

Theorem C103_consumer_scrambler :
  forall (S A T F E : Type) (x0 : T) (C : bulk_consumer S T F E) (M : machine A T F E) R D s a pat cap fuel h s'
    (item : T -> debug) (inner : S -> debug) d di,
  cscr_hyps C M R D s a pat cap fuel ->
  c_trace (cscr_consumer false x0 fuel C) (cscr_new_with_capacity x0 s pat cap) h s' -> c_client 0 [] h ->
  Forall (fun p => c_ends (fst p) (snd p) = false) h ->
  (forall x, part_writes (item x) (d x)) -> part_writes (inner (cs_inner s')) di ->
  exists out pend a' index,
    (out ++ pend)%list = c_consumed [] h /\ List.length pend <= cap /\ m_forwards M a out a' /\ R (cs_inner s') a' 0 [] /\
    part_writes (debug_cscr item inner s')
      (Struct "BulkScrambler"
         [("inner", di);
          ("buffer", Struct "Fixed" [("capacity", t_number cap); ("len", t_number (List.length pend)); ("data", t_list d pend)]);
          ("operations", t_list t_cscr_op (cs_operations (cscr_new_with_capacity x0 s pat cap))); ("operations_index", t_number index)]) /\
    index < List.length (cs_operations (cscr_new_with_capacity x0 s pat cap)).
Proof.
  intros S A T F E x0 C M R D s a pat cap fuel h s' item inner d di HH HT HC HG HI HD.
  destruct (cscr_hyps_buffers S A T F E x0 C M R D s a pat cap fuel HH) as [HB HR].
  destruct (buffers_trace HB HT HC HR) as ([a' pend k w|a'] & H1 & H2).
  - destruct (b_run_active (pend := []) (Nat.le_0_l _) H1) as (out & H3 & H4 & H5). destruct H2 as [(WQ & Wo & Wi) HRI].
    exists out, pend, a', (cs_index s'). split; [exact H3|]. split; [exact H4|]. split; [exact H5|]. split; [exact HRI|].
    split; [|exact Wi].
    unfold debug_cscr. rewrite Wo. fields; [exact HD|exact (@fixed_part _ _ _ _ _ _ HI (fixed_debug_spec WQ))| |apply number_part].
    apply slice_part, cscr_op_part.
  - exfalso. destruct (b_run_ended (pend := []) (Nat.le_0_l _) H1) as (h0 & o & r & -> & H3). apply Forall_app in HG as [_ HG].
    inversion HG as [|? ? G _]; subst. cbn in G.
    destruct H3 as [(f & a1 & -> & _)|[(e & He & _)|(e & a1 & -> & -> & _)]]; try discriminate.
    destruct r as [[|]|[|]|[|]|]; cbn in He; try discriminate; destruct o; discriminate.
Qed.
Print Assumptions C103_consumer_scrambler.

(** *** The same calls with the same answers, with and without the checks: the same text. *)
Theorem C103_checks_invisible :
  (forall S T F E (P : bulk_producer S T F E) (inner : S -> debug),
   (forall buf s, p_bulk_produce P buf s = default_bulk_produce (p_expose P) (p_consider P) buf s) ->
   forall s h s1 s2, p_trace (public_producer true P) (invariant_new s) h s1 -> p_trace (public_producer false P) (invariant_new s) h s2 ->
   debug_public inner s1 = debug_public inner s2) /\
  (forall S T F E (C : bulk_consumer S T F E) (inner : S -> debug),
   (forall buf s, c_bulk_consume C buf s = default_bulk_consume (c_expose C) (c_write C) (c_consume_slots C) buf s) ->
   forall s h s1 s2, c_trace (public_consumer true C) (invariant_new s) h s1 -> c_trace (public_consumer false C) (invariant_new s) h s2 ->
   debug_public inner s1 = debug_public inner s2).
Proof.
  split.
  - intros S T F E P inner HB s h s1 s2 H1 H2. unfold debug_public, debug_invariant. f_equal.
    exact (@p_trace_fun _ _ _ _ P _ _ _ _ (@public_p_trace _ _ _ _ P true HB _ _ _ H1) (@public_p_trace _ _ _ _ P false HB _ _ _ H2)).
  - intros S T F E C inner HB s h s1 s2 H1 H2. unfold debug_public, debug_invariant. f_equal.
    exact (@c_trace_fun _ _ _ _ C _ _ _ _ (@public_c_trace _ _ _ _ C true HB _ _ _ H1) (@public_c_trace _ _ _ _ C false HB _ _ _ H2)).
Qed.
Print Assumptions C103_checks_invisible.

(** *** What two equal texts tell about the values: everything but the closures and the state of the checker. *)
Theorem C103_tells :
  forall A (P : A -> Prop) (R : A -> A -> Prop) show, clear P R show ->
  forall a b alternate, P a -> P b -> show a alternate = show b alternate -> R a b.
Proof.
  intros A P R show HC a b alternate Ha Hb E. destruct HC as (d & H1 & H2). destruct (H1 a Ha) as [_ W].
  apply (@clear_text _ P R show (ex_intro _ d (conj H1 H2)) a b alternate (text alternate (d a)) Ha Hb); [apply W|]. rewrite <- E. apply W.
Qed.
Print Assumptions C103_tells.

Theorem C103_clear_types :
  forall T F E (item : T -> debug) (fin : F -> debug) (err : E -> debug),
  clear any eq item -> clear any eq fin -> clear any eq err ->
  clear any (fun a b => inv_inner a = inv_inner b) (debug_public (debug_empty fin)) /\
  clear any (fun a b => inv_inner a = inv_inner b) (debug_public (debug_from_slice item)) /\
  clear any (fun a b => inv_inner a = inv_inner b) (debug_public (debug_from_boxed_slice item)) /\
  clear any (fun a b => inv_inner a = inv_inner b) (debug_public (debug_into_vec item)) /\
  clear any (fun a b => inv_inner a = inv_inner b) (debug_public (debug_into_slice item)) /\
  clear any (fun a b => inv_inner (ntp_inner a) = inv_inner (ntp_inner b) /\ ntp_last a = ntp_last b /\ ntp_sizes a = ntp_sizes b /\ ntp_yielder a = ntp_yielder b)
    (debug_test_producer item fin err) /\
  clear any (fun a b => inv_inner (ntc_inner a) = inv_inner (ntc_inner b) /\ ntc_fin a = ntc_fin b /\ ntc_error a = ntc_error b /\ ntc_left a = ntc_left b /\
    ntc_sizes a = ntc_sizes b /\ ntc_yielder a = ntc_yielder b) (debug_test_consumer item fin err) /\
  clear any eq (debug_pipe_error fin err) /\ clear any eq (debug_cale err) /\ clear any eq (debug_pale fin err) /\
  clear any eq (debug_decode_error fin err item) /\ clear any eq (debug_encoded_pair item fin) /\
  clear any eq debug_yielder /\ clear any eq debug_blame /\ (forall w, clear any eq (debug_endian w)) /\
  clear any eq debug_usize /\ clear any eq debug_bool /\ clear any eq debug_unit /\ (forall i, clear any eq (@debug_num i)) /\
  clear any eq (debug_option item) /\ clear any eq (debug_slice item).
Proof.
  intros T F E item fin err CI CF CE.
  split; [exact (public_clear (empty_clear CF))|]. split; [exact (public_clear (from_slice_clear CI))|].
  split; [exact (public_clear (from_boxed_slice_clear CI))|]. split; [exact (public_clear (into_vec_clear CI))|].
  split; [exact (public_clear (into_slice_clear CI))|]. split; [now apply test_producer_clear|]. split; [now apply test_consumer_clear|].
  split; [now apply pipe_error_clear|]. split; [now apply cale_clear|]. split; [now apply pale_clear|]. split; [now apply decode_error_clear|].
  split; [now apply encoded_pair_clear|]. split; [exact yielder_clear|]. split; [exact blame_clear|]. split; [exact endian_clear|].
  split; [exact number_clear|]. split; [exact bool_clear|]. split; [exact unit_clear|]. split; [exact num_clear|].
  split; [now apply option_clear|now apply slice_clear].
Qed.
Print Assumptions C103_clear_types.

Theorem C103_clear_adaptors :
  forall S (P : S -> Prop) (R : S -> S -> Prop) inner, clear P R inner ->
  clear (fun s => P (inv_inner s)) (fun a b => R (inv_inner a) (inv_inner b)) (debug_public inner) /\
  clear (fun s => P (lim_inner s)) (fun a b => R (lim_inner a) (lim_inner b) /\ lim_remaining a = lim_remaining b) (debug_limit inner) /\
  (forall W, clear (fun s : map_item S W => P (mi_inner s)) (fun a b => R (mi_inner a) (mi_inner b)) (debug_map_item inner)) /\
  (forall G, clear (fun s : with_fun S G => P (wf_inner s)) (fun a b => R (wf_inner a) (wf_inner b)) (debug_map_final inner)) /\
  (forall G, clear (fun s : with_fun S G => P (wf_inner s)) (fun a b => R (wf_inner a) (wf_inner b)) (debug_map_error inner)) /\
  clear P R (debug_buf_reader inner) /\
  (forall T F E (item : T -> debug) (fin : F -> debug) (err : E -> debug), clear any eq item -> clear any eq fin -> clear any eq err ->
   let listed (q : fixed T) := exists c items, fixed_debug q = Ret (c, List.length items, items) in
   clear (fun s : pscr S T F E => P (ps_inner s) /\ listed (ps_buffer s))
     (fun a b => R (ps_inner a) (ps_inner b) /\ fixed_debug (ps_buffer a) = fixed_debug (ps_buffer b) /\ ps_last a = ps_last b /\
        ps_operations a = ps_operations b /\ ps_index a = ps_index b) (debug_pscr item fin err inner) /\
   clear (fun s : cscr S T => P (cs_inner s) /\ listed (cs_buffer s))
     (fun a b => R (cs_inner a) (cs_inner b) /\ fixed_debug (cs_buffer a) = fixed_debug (cs_buffer b) /\
        cs_operations a = cs_operations b /\ cs_index a = cs_index b) (debug_cscr item inner)) /\
  (forall Q (PQ : Q -> Prop) (RQ : Q -> Q -> Prop) queue, clear PQ RQ queue ->
   clear (fun s => P (rs_reader s) /\ PQ (rs_queue s)) (fun a b => R (rs_reader a) (rs_reader b) /\ RQ (rs_queue a) (rs_queue b)) (debug_reader inner queue) /\
   clear (fun s => P (ws_writer s) /\ PQ (ws_queue s)) (fun a b => R (ws_writer a) (ws_writer b) /\ RQ (ws_queue a) (ws_queue b)) (debug_writer inner queue)).
Proof.
  intros S P R inner CS.
  split; [exact (public_clear CS)|]. split; [now apply limit_clear|]. split; [intros; now apply map_item_clear|].
  split; [intros; now apply map_final_clear|]. split; [intros; now apply map_error_clear|]. split; [now apply buf_reader_clear|].
  split; [intros T F E item fin err CI CF CE; split; [now apply pscr_clear|now apply cscr_clear]|].
  intros Q PQ RQ queue CQ. split; [now apply reader_clear|now apply writer_clear].
Qed.
Print Assumptions C103_clear_adaptors.

(** *** What the texts do not tell. *)

(** Two [MapItem]s with the same text that answer differently: the closure is not shown. *)
Theorem C103_map_item_tells_refuted :
  exists (f g : unit -> nat -> unit * nat) (s : map_item (invariant (from_slice nat)) unit),
  debug_map_item (debug_public (debug_from_slice debug_usize)) s false = Ret "MapItem { inner: FromSlice([1], 0) }" /\
  omap snd (map_item_produce (public_producer true from_slice_producer) f s) <> omap snd (map_item_produce (public_producer true from_slice_producer) g s).
Proof.
  exists (fun u x => (u, x)), (fun u x => (u, x + 1)), (mk_map_item (invariant_new (from_slice_new [1])) tt). split; [reflexivity|discriminate].
Qed.
Print Assumptions C103_map_item_tells_refuted.

(** The text of a [Static] does not contain its capacity, unlike that of a [Fixed]. *)
Theorem C103_static_capacity_refuted :
  exists N1 N2 (q1 : static nat) (q2 : static nat), N1 <> N2 /\ q1 = static_new N1 0 /\ q2 = static_new N2 0 /\
  debug_static N1 debug_usize q1 = debug_static N2 debug_usize q2 /\
  q_do (static_queue N1) OpExposeSlots q1 = Ret (static_new N1 0, ASlots (Some 1)) /\
  q_do (static_queue N2) OpExposeSlots q2 = Ret (static_new N2 0, ASlots (Some 2)).
Proof. exists 1, 2, (static_new 1 0), (static_new 2 0). repeat split. discriminate. Qed.
Print Assumptions C103_static_capacity_refuted.

(** The text of an [IntoVec] is not determined by the items it has collected: it contains the slots exposed but not used. *)
Theorem C103_into_vec_items_refuted :
  exists h1 h2 (s1 s2 : invariant (into_vec nat)),
  c_trace (public_consumer true (into_vec_consumer 0)) (public_into_vec_from_vec []) h1 s1 /\
  c_trace (public_consumer true (into_vec_consumer 0)) (public_into_vec_from_vec []) h2 s2 /\
  into_vec_into_vec (inv_inner s1) = into_vec_into_vec (inv_inner s2) /\
  debug_public (debug_into_vec debug_usize) s1 false = Ret "IntoVec { v: [7], consumed: 1 }" /\
  debug_public (debug_into_vec debug_usize) s2 false = Ret "IntoVec { v: [7, 0, 0], consumed: 1 }".
Proof.
  exists [(CConsume 7, CAUnit (Ok tt))], [(CConsume 7, CAUnit (Ok tt)); (CExpose, CASlots (Ok 2))].
  eexists _, _. split; [eapply c_trace_step; [reflexivity|apply c_trace_nil]|].
  split; [eapply c_trace_step; [reflexivity|eapply c_trace_step; [reflexivity|apply c_trace_nil]]|]. split; [reflexivity|]. split; reflexivity.
Qed.
Print Assumptions C103_into_vec_items_refuted.

(** *** Examples *)

(** What [DebugTuple] does for tuples; in a struct or variant with one field there is no comma. *)
Example C103_tuple_example :
  debug_tuple "" [debug_usize 5] false = Ret "(5,)" /\ debug_tuple "" [debug_usize 5; debug_usize 6] false = Ret "(5, 6)" /\
  debug_tuple "Some" [debug_usize 5] false = Ret "Some(5)" /\ debug_tuple "" [debug_usize 5] true = Ret ("(" ++ nl ++ "    5," ++ nl ++ ")").
Proof. repeat split; vm_compute; reflexivity. Qed.

(** into_vec.rs 214-223. *)
Example C103_into_vec_example :
  debug_public (debug_into_vec (@debug_num u8)) (invariant_new into_vec_new) false = Ret "IntoVec { v: [], consumed: 0 }".
Proof. reflexivity. Qed.

(** A queue that has wrapped around. *)
Example C103_fixed_example :
  exists h q a, q_history (fixed_queue nat) 3 (fixed_new 0 3) q_empty h q a /\ q = mk_fixed [4; 2; 3] 2 2 /\
  debug_fixed debug_usize q false = Ret "Fixed { capacity: 3, len: 2, data: [3, 4] }" /\
  debug_fixed debug_usize q true = Ret
"Fixed {
    capacity: 3,
    len: 2,
    data: [
        3,
        4,
    ],
}".
Proof.
  exists [(OpBulkEnqueue [1; 2; 3], ANat 3); (OpDequeue, AItem (Some 1)); (OpDequeue, AItem (Some 2)); (OpEnqueue 4, AItem None)].
  eexists _, _. split; [|split; [reflexivity|split; reflexivity]].
  eapply q_history_step; [exact Logic.I|reflexivity| |].
  { cbn. split; [lia|]. split; [lia|]. split; [split; [discriminate|intros [H|H]; discriminate]|reflexivity]. }
  eapply q_history_step; [exact Logic.I|reflexivity|cbn; eexists; split; reflexivity|].
  eapply q_history_step; [exact Logic.I|reflexivity|cbn; eexists; split; reflexivity|].
  eapply q_history_step; [exact Logic.I|reflexivity|cbn; split; [lia|reflexivity]|]. apply q_history_nil.
Qed.

Example C103_nested_example :
  debug_limit (debug_public (debug_test_producer (@debug_num i8) debug_unit (debug_option debug_bool)))
    (mk_limit (invariant_new (mk_ntp (invariant_new (from_slice_new [num_of i8 (-1)%Z; num_of i8 2%Z])) (Some (Err (Some true)))
       (Some ([2; 1], 0)) (Some (mk_yielder [true; false] 1)))) 5) false
  = Ret "Limit { inner: TestProducer { inner: FromBoxedSlice([-1, 2], 0), last: Some(Err(Some(true))), exposed_items_sizes: Some(([2, 1], 0)), yielder: Some(TestYielder { pattern: [true, false], index: 1 }) }, remaining: 5 }".
Proof. reflexivity. Qed.

Example C103_nested_pretty_example :
  debug_limit (debug_public (debug_test_consumer debug_usize debug_unit debug_usize))
    (mk_limit (invariant_new (mk_ntc (invariant_new (into_vec_from_vec [1])) None (Some 3) 2 None None)) 5) true
  = Ret
"Limit {
    inner: TestConsumer {
        inner: IntoVec {
            v: [
                1,
            ],
            consumed: 1,
        },
        final: None,
        error: Some(
            3,
        ),
        operations_until_error: 2,
        exposed_slot_sizes: None,
        yielder: None,
    },
    remaining: 5,
}".
Proof. reflexivity. Qed.

(** Scramblers in the middle of their work (the histories of C28_example and C30_hyps_example). *)
Example C103_scrambler_example :
  exists s', p_history (pscr_producer true 16 test_producer) (ex_scrambled 3) (PActive [1; 2; 3; 4; 5] (Ok 7) 0) [(PProduce, PAItem (Ok (inl 1)))] s'
    (PActive [2; 3; 4; 5] (Ok 7) 0) /\
  debug_pscr debug_usize debug_usize debug_usize (fun _ => debug_word "_") s' false = Ret
    "BulkScrambler { inner: _, buffer: Fixed { capacity: 3, len: 2, data: [2, 3] }, last: None, operations: [Produce, Slurp, ConsiderProduced(2)], operations_index: 0 }".
Proof.
  eexists. split; [|].
  - run_p.
  - vm_compute. reflexivity.
Qed.

Example C103_consumer_scrambler_example :
  exists s', c_trace (cscr_consumer false 0 12 (Reference.ref_consumer ex_machine 3)) (ex_consumer_scrambled 2) [(CConsume 4, CAUnit (Ok tt))] s' /\
  c_client 0 [] [(CConsume (F := nat) 4, CAUnit (E := nat) (Ok tt))] /\
  debug_cscr debug_usize (fun _ => debug_word "_") s' true = Ret
"BulkScrambler {
    inner: _,
    buffer: Fixed {
        capacity: 2,
        len: 1,
        data: [
            4,
        ],
    },
    operations: [
        Consume,
        Flush,
        ConsumeSlots(
            2,
        ),
    ],
    operations_index: 0,
}".
Proof.
  eexists. split; [eapply c_trace_step; [reflexivity|apply c_trace_nil]|]. split; [cbn; auto|]. vm_compute. reflexivity.
Qed.

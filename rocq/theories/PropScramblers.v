(** Properties C28-C32: the BulkScramblers. *)
From Coq Require Import Bool List Arith Lia.
From Verif Require Import Prelude ListFacts Traits Contracts ContractFacts BasicModel BasicSpec BasicProofs Reference
  AdaptorSpec BufferedSpec BufferedFacts ScramblerModel ScramblerProofs.
Import ListNotations.

(** *** C28. [pat] is the operation pattern; [NonZeroUsize] amounts are at least 1. If the pattern
    contains [Slurp], then the inner producer must have a working [slurp]. Running out of fuel
    would be a divergence; it does not happen. *)

Theorem C28_scrambler_conforms :
  forall (S T F E : Type) (dbg : bool) (P : bulk_producer S T F E) R D (x0 : T) s xs l k pat cap fuel (ops : list (pop T)),
  lawful_producer_core P R D -> R s xs l k ->
  1 <= cap -> (forall n, In (ScConsiderProduced n) pat -> 1 <= n) ->
  (lawful_slurp P R D \/ ~ In ScSlurp pat) ->
  Datatypes.S cap * Datatypes.S (length pat) <= fuel ->
  ~ In PSlurp ops ->
  p_conforms (pscr_producer dbg fuel P) ops (pscr_new_with_capacity x0 s pat cap) (PActive xs l 0).
Proof.
  intros S T F E dbg P R D x0 s xs l k pat cap fuel ops L HR Hc Hn LS Hf Hops.
  assert (HF : Forall pscr_op_ok pat) by (apply Forall_forall; intros [| |] Hi; cbn; auto).
  eapply (lawful_p_conforms ops (s := pscr_new_with_capacity x0 s pat cap) (a := PActive xs l 0)).
  - apply (@pscr_lawful _ _ _ _ dbg P R D L cap (pscr_operations pat)).
    + destruct LS as [LS|LS]; [left; exact LS|right]. intros H. apply LS. now apply pscr_operations_slurp.
    + now apply pscr_operations_ok.
    + pose proof (pscr_operations_length pat). nia.
  - now right.
  - cbn. eapply pscr_new_rel; eauto.
Qed.
Print Assumptions C28_scrambler_conforms.

(** At most [cap] items are read ahead, and none is lost. *)
Theorem C28_scrambler_reads_ahead :
  forall (S T F E : Type) (dbg : bool) (P : bulk_producer S T F E) R D (x0 : T) s xs l k pat cap fuel h s' a',
  lawful_producer_core P R D -> R s xs l k ->
  1 <= cap -> (forall n, In (ScConsiderProduced n) pat -> 1 <= n) ->
  (lawful_slurp P R D \/ ~ In ScSlurp pat) ->
  Datatypes.S cap * Datatypes.S (length pat) <= fuel ->
  ~ In PSlurp (map fst h) ->
  p_history (pscr_producer dbg fuel P) (pscr_new_with_capacity x0 s pat cap) (PActive xs l 0) h s' a' ->
  match a' with
  | PActive _ _ _ =>
      p_last h = None /\ exists ahead, length ahead <= cap /\
        ((exists ys k', R (ps_inner s') ys l k' /\ xs = p_emitted [] h ++ ahead ++ ys) \/
         (D (ps_inner s') /\ xs = p_emitted [] h ++ ahead))
  | PEnded => p_last h = Some l /\ p_emitted [] h = xs /\ D (ps_inner s')
  end.
Proof.
  intros S T F E dbg P R D x0 s xs l k pat cap fuel h s' a' L HR Hc Hn LS Hf Hops HH.
  assert (HF : Forall pscr_op_ok pat) by (apply Forall_forall; intros [| |] Hi; cbn; auto).
  assert (HL : lawful_producer (pscr_producer dbg fuel P) (pscr_rel R D cap (pscr_operations pat)) (pscr_end D)).
  { apply (@pscr_lawful _ _ _ _ dbg P R D L cap (pscr_operations pat)).
    + destruct LS as [LS|LS]; [left; exact LS|right]. intros H. apply LS. now apply pscr_operations_slurp.
    + now apply pscr_operations_ok.
    + pose proof (pscr_operations_length pat). nia. }
  assert (HR' : p_rel (pscr_rel R D cap (pscr_operations pat)) (pscr_end D) s' a').
  { eapply lawful_p_history with (4 := HH); [exact HL|now right|]. cbn. eapply pscr_new_rel; eauto. }
  pose proof (p_history_emits (Nat.le_0_l _) HH) as HE. cbn [firstn] in HE. destruct a' as [ys l' k'|].
  - destruct HE as (HE & -> & Hl & _). split; [exact Hl|].
    destruct HR' as (buf & W & HO & _). exists buf. split; [apply (pscr_wf_cap W)|].
    unfold pscr_holds in HO. destruct (ps_last s').
    + right. destruct HO as (_ & -> & HD). auto.
    + left. destruct HO as (zs & k2 & HZ & ->). eauto.
  - destruct HE as [HE Hl]. auto.
Qed.
Print Assumptions C28_scrambler_reads_ahead.

(** A [slurp] while more than [cap] items are still to come is harmless, too. *)
Theorem C28_scrambler_early_slurp :
  forall (S T F E : Type) (dbg : bool) (P : bulk_producer S T F E) R D (x0 : T) s xs l k pat cap fuel h s' ys l' k'
    (ops : list (pop T)),
  lawful_producer_core P R D -> lawful_slurp P R D -> R s xs l k ->
  1 <= cap -> (forall n, In (ScConsiderProduced n) pat -> 1 <= n) ->
  Datatypes.S cap * Datatypes.S (length pat) <= fuel ->
  ~ In PSlurp (map fst h) -> ~ In PSlurp ops ->
  p_history (pscr_producer dbg fuel P) (pscr_new_with_capacity x0 s pat cap) (PActive xs l 0) h s' (PActive ys l' k') ->
  cap < length ys ->
  p_conforms (pscr_producer dbg fuel P) (PSlurp :: ops) s' (PActive ys l' k').
Proof.
  intros S T F E dbg P R D x0 s xs l k pat cap fuel h s' ys l' k' ops L HS HR Hc Hn Hf Hops Hops2 HH Hlen.
  assert (HF : Forall pscr_op_ok pat) by (apply Forall_forall; intros [| |] Hi; cbn; auto).
  assert (Hf' : Datatypes.S cap * length (pscr_operations pat) <= fuel) by (pose proof (pscr_operations_length pat); nia).
  assert (HL : lawful_producer (pscr_producer dbg fuel P) (pscr_rel R D cap (pscr_operations pat)) (pscr_end D)).
  { apply (@pscr_lawful _ _ _ _ dbg P R D L cap (pscr_operations pat)); [now left|now apply pscr_operations_ok|exact Hf']. }
  assert (HR' : p_rel (pscr_rel R D cap (pscr_operations pat)) (pscr_end D) s' (PActive ys l' k')).
  { eapply lawful_p_history with (4 := HH); [exact HL|now right|]. cbn. eapply pscr_new_rel; eauto. }
  destruct (@pscr_slurp_ok _ _ _ _ dbg P R D L cap (pscr_operations pat) (or_introl HS) (pscr_operations_ok HF)
    fuel s' ys l' k' Hf' HS HR' Hlen) as (s2 & E2 & HR2).
  eapply p_conforms_step with (s' := s2) (r := PAUnit (Ok tt)) (a' := PActive ys l' k').
  - exact I.
  - cbn [p_do]. rewrite E2. reflexivity.
  - cbn. left. auto.
  - apply (lawful_p_conforms ops (s := s2) (a := PActive ys l' k') HL); [now right|exact HR2].
Qed.
Print Assumptions C28_scrambler_early_slurp.

(** A scrambled TestProducer: pattern [Produce, Slurp, ConsiderProduced(2)], capacity 3. *)
Definition ex_scrambled (cap : nat) : pscr (test_producer_state nat nat nat) nat nat nat :=
  pscr_new_with_capacity 0 (test_producer_build [1; 2; 3; 4; 5] (Ok 7) (Some [2]) None)
    [ScProduce; ScSlurp; ScConsiderProduced 2] cap.

Example C28_example :
  let h := [(PProduce, PAItem (Ok (inl 1))); (PExpose, PASlice (Ok (inl [2; 3]))); (PConsider 1, PAUnit (Ok tt));
         (PBulkProduce [0; 0], PABuf [3; 0] (Ok (inl 1))); (PProduce, PAItem (Ok (inl 4))); (PProduce, PAItem (Ok (inl 5)));
         (PExpose, PASlice (Ok (inr 7)))] in
  exists s', p_history (pscr_producer true 16 test_producer) (ex_scrambled 3) (PActive [1; 2; 3; 4; 5] (Ok 7) 0) h s' PEnded.
Proof. eexists. run_p. Qed.

(** *** C29 *)

(** The inner TestProducer obeys its contract, yet the first [slurp] panics. *)
Theorem C29_slurp_refuted :
  exists (xs : list nat) (cap : nat) (s : test_producer_state nat nat nat),
    lawful_producer test_producer tp_rel (@tp_end nat nat nat) /\
    lawful_slurp test_producer tp_rel (@tp_end nat nat nat) /\
    tp_rel s xs (Ok 7) 0 /\ length xs < cap /\
    forall fuel, 30 <= fuel ->
      p_slurp (pscr_producer false fuel test_producer) (pscr_new_with_capacity 0 s [] cap) = Panic.
Proof.
  exists [1; 2], 5, (test_producer_build [1; 2] (Ok 7) None None).
  splits; [apply test_producer_lawful|apply test_producer_slurp_lawful|now apply tp_rel_build|cbn; lia|].
  intros fuel Hf. do 5 (destruct fuel as [|fuel]; [lia|]). reflexivity.
Qed.
Print Assumptions C29_slurp_refuted.

(** In general: if the rest of the sequence is shorter than the capacity and ends with a final value,
    then [slurp] calls [slurp] on the ended inner producer. If that panics, so does this call; if it
    reports an error, then this error replaces the final value. *)
Theorem C29_slurp_uses_ended_inner :
  forall (S T F E : Type) (dbg : bool) (P : bulk_producer S T F E) R D (x0 : T) s xs f k pat cap fuel,
  lawful_producer_core P R D -> R s xs (Ok f) k ->
  1 <= cap -> (forall n, In (ScConsiderProduced n) pat -> 1 <= n) ->
  (lawful_slurp P R D \/ ~ In ScSlurp pat) ->
  Datatypes.S cap * Datatypes.S (length pat) <= fuel ->
  length xs < cap ->
  exists i, D i /\
    (p_slurp P i = Panic ->
     p_slurp (pscr_producer dbg fuel P) (pscr_new_with_capacity x0 s pat cap) = Panic) /\
    (forall i' e, p_slurp P i = Ret (i', Err e) -> exists s',
       p_slurp (pscr_producer dbg fuel P) (pscr_new_with_capacity x0 s pat cap) =
         Ret (s', if length xs =? 0 then Err e else Ok tt)).
Proof.
  intros S T F E dbg P R D x0 s xs f k pat cap fuel L HR Hc Hn LS Hf Hlen.
  assert (HF : Forall pscr_op_ok pat) by (apply Forall_forall; intros [| |] Hi; cbn; auto).
  eapply (@pscr_slurp_after_end_effect _ _ _ _ dbg P R D L cap (pscr_operations pat)).
  - destruct LS as [LS|LS]; [left; exact LS|right]. intros H. apply LS. now apply pscr_operations_slurp.
  - now apply pscr_operations_ok.
  - pose proof (pscr_operations_length pat). nia.
  - eapply pscr_new_rel; eauto.
  - exact Hlen.
Qed.
Print Assumptions C29_slurp_uses_ended_inner.

Example C29_example :
  let s := test_producer_build [1; 2] (@Ok nat nat 7) None None in
  p_slurp (pscr_producer false 30 test_producer) (pscr_new_with_capacity 0 s [] 5) = Panic /\
  is_ok (match p_slurp (pscr_producer false 30 test_producer) (pscr_new_with_capacity 0 s [] 1) with
         | Ret (_, r) => r | _ => Err 0 end) = true.
Proof. split; reflexivity. Qed.

(** *** C30. The release build. [m_forwards M a out a']: the inner machine accepts the items [out], in order,
    possibly with flushes in between. *)

Definition cscr_hyps {S A T F E} (C : bulk_consumer S T F E) (M : machine A T F E) R D (s : S) (a : A)
    (pat : list cscr_op) (cap fuel : nat) : Prop :=
  lawful_consumer_core C M R D /\ R s a 0 [] /\ 1 <= cap /\
  (forall n, In (ScConsumeSlots n) pat -> 1 <= n) /\ Datatypes.S cap * Datatypes.S (length pat) <= fuel.

Lemma cscr_hyps_buffers : forall (S A T F E : Type) (x0 : T) (C : bulk_consumer S T F E) (M : machine A T F E) R D s a pat cap fuel,
  cscr_hyps C M R D s a pat cap fuel ->
  buffers (cscr_consumer false x0 fuel C) M cap (cscr_rel R cap (cscr_operations pat)) (cscr_end D) /\
  cscr_rel R cap (cscr_operations pat) (cscr_new_with_capacity x0 s pat cap) a [] 0 [].
Proof.
  intros S A T F E x0 C M R D s a pat cap fuel (L & HR & Hc & Hn & Hf).
  assert (HF : Forall cscr_op_ok pat) by (apply Forall_forall; intros [| |] Hi; cbn; auto).
  split.
  - apply (@cscr_buffers _ _ _ _ _ x0 C M R D L cap _ (cscr_operations_ok HF)). pose proof (cscr_operations_length pat). nia.
  - eapply cscr_new_rel; eauto.
Qed.

Theorem C30_scrambler_forwards :
  forall (S A T F E : Type) (x0 : T) (C : bulk_consumer S T F E) (M : machine A T F E) R D s a pat cap fuel h s',
  cscr_hyps C M R D s a pat cap fuel ->
  c_trace (cscr_consumer false x0 fuel C) (cscr_new_with_capacity x0 s pat cap) h s' -> c_client 0 [] h ->
  (exists out pend a', out ++ pend = c_consumed [] h /\ length pend <= cap /\ m_forwards M a out a' /\
     R (cs_inner s') a' 0 []) \/
  (exists h0 o r, h = h0 ++ [(o, r)] /\ c_ends o r = true).
Proof.
  intros S A T F E x0 C M R D s a pat cap fuel h s' HH HT HC.
  destruct (cscr_hyps_buffers S A T F E x0 C M R D s a pat cap fuel HH) as [HB HR].
  destruct (buffers_trace HB HT HC HR) as ([a' pend k w|a'] & H1 & H2).
  - left. destruct (b_run_active (pend := []) (Nat.le_0_l _) H1) as (out & H3 & H4 & H5).
    exists out, pend, a'. splits; auto. apply H2.
  - right. destruct (b_run_ended (pend := []) (Nat.le_0_l _) H1) as (h0 & o & r & -> & H3).
    exists h0, o, r. split; [reflexivity|].
    destruct H3 as [(f & a1 & -> & _)|[(e & He & _)|(e & a1 & -> & -> & _)]]; [reflexivity| |reflexivity].
    destruct r as [[|]|[|]|[|]|]; cbn in He; try discriminate; destruct o; reflexivity.
Qed.
Print Assumptions C30_scrambler_forwards.

(** A successful flush leaves nothing withheld. *)
Theorem C30_scrambler_flush :
  forall (S A T F E : Type) (x0 : T) (C : bulk_consumer S T F E) (M : machine A T F E) R D s a pat cap fuel h s',
  cscr_hyps C M R D s a pat cap fuel ->
  c_trace (cscr_consumer false x0 fuel C) (cscr_new_with_capacity x0 s pat cap) (h ++ [(CFlush, CAUnit (Ok tt))]) s' ->
  c_client 0 [] (h ++ [(CFlush, CAUnit (Ok tt))]) ->
  exists a1 a', m_forwards M a (c_consumed [] h) a1 /\ m_flush M a1 = (a', Ok tt) /\ R (cs_inner s') a' 0 [].
Proof.
  intros S A T F E x0 C M R D s a pat cap fuel h s' HH HT HC.
  destruct (cscr_hyps_buffers S A T F E x0 C M R D s a pat cap fuel HH) as [HB HR].
  destruct (buffers_trace HB HT HC HR) as (b' & H1 & H2).
  destruct (b_run_flushed _ H1) as (a1 & a' & k & w & -> & H3 & H4). exists a1, a'. splits; auto. apply H2.
Qed.
Print Assumptions C30_scrambler_flush.

(** A successful close delivers all items, then the final value. *)
Theorem C30_scrambler_close :
  forall (S A T F E : Type) (x0 : T) (C : bulk_consumer S T F E) (M : machine A T F E) R D s a pat cap fuel h f s',
  cscr_hyps C M R D s a pat cap fuel ->
  c_trace (cscr_consumer false x0 fuel C) (cscr_new_with_capacity x0 s pat cap) (h ++ [(CClose f, CAUnit (Ok tt))]) s' ->
  c_client 0 [] (h ++ [(CClose f, CAUnit (Ok tt))]) ->
  exists a1 a', m_forwards M a (c_consumed [] h) a1 /\ m_finish M f a1 = (a', Ok tt) /\ D (cs_inner s') a'.
Proof.
  intros S A T F E x0 C M R D s a pat cap fuel h f s' HH HT HC.
  destruct (cscr_hyps_buffers S A T F E x0 C M R D s a pat cap fuel HH) as [HB HR].
  destruct (buffers_trace HB HT HC HR) as (b' & H1 & H2).
  destruct (b_run_closed _ _ H1) as (a1 & a' & -> & H3 & H4). exists a1, a'. splits; auto.
Qed.
Print Assumptions C30_scrambler_close.

(** An error is the inner consumer's: it refused one of the items consumed so far after having been fed all
    earlier ones, or a flush in between, or, after all items, the final value or the flush asked for. *)
Theorem C30_scrambler_error :
  forall (S A T F E : Type) (x0 : T) (C : bulk_consumer S T F E) (M : machine A T F E) R D s a pat cap fuel h o r e s',
  cscr_hyps C M R D s a pat cap fuel ->
  c_trace (cscr_consumer false x0 fuel C) (cscr_new_with_capacity x0 s pat cap) (h ++ [(o, r)]) s' ->
  c_client 0 [] (h ++ [(o, r)]) -> c_error r = Some e ->
  exists a', D (cs_inner s') a' /\
    (m_refuses M a (c_consumed [] h) e a' \/
     (exists f a1, o = CClose f /\ m_forwards M a (c_consumed [] h) a1 /\ m_finish M f a1 = (a', Err e)) \/
     (exists a1, o = CFlush /\ m_forwards M a (c_consumed [] h) a1 /\ m_flush M a1 = (a', Err e))).
Proof.
  intros S A T F E x0 C M R D s a pat cap fuel h o r e s' HH HT HC He.
  destruct (cscr_hyps_buffers S A T F E x0 C M R D s a pat cap fuel HH) as [HB HR].
  destruct (buffers_trace HB HT HC HR) as (b' & H1 & H2).
  destruct (b_run_error _ _ _ H1 He) as (a' & -> & H3). exists a'. split; [exact H2|exact H3].
Qed.
Print Assumptions C30_scrambler_error.

(** No permitted call panics or loops forever. *)
Theorem C30_scrambler_total :
  forall (S A T F E : Type) (x0 : T) (C : bulk_consumer S T F E) (M : machine A T F E) R D s a pat cap fuel h o r s',
  cscr_hyps C M R D s a pat cap fuel ->
  c_trace (cscr_consumer false x0 fuel C) (cscr_new_with_capacity x0 s pat cap) h s' ->
  c_client 0 [] (h ++ [(o, r)]) ->
  exists s'' r', c_do (cscr_consumer false x0 fuel C) o s' = Ret (s'', r').
Proof.
  intros S A T F E x0 C M R D s a pat cap fuel h o r s' HH HT HC.
  destruct (cscr_hyps_buffers S A T F E x0 C M R D s a pat cap fuel HH) as [HB HR].
  eapply (buffers_total HB); eauto.
Qed.
Print Assumptions C30_scrambler_total.

(** A scrambled machine that collects items and refuses the number 9: pattern [Consume, Flush, ConsumeSlots(2)],
    capacity 2. *)
Definition ex_machine : machine (list nat) nat nat nat :=
  mk_machine (fun x a => if x =? 9 then (a, Err 99) else (a ++ [x], Ok tt)) (fun f a => (a ++ [f], Ok tt)) (fun a => (a, Ok tt)).

Definition ex_consumer_scrambled (cap : nat) : cscr (list nat * list nat) nat :=
  cscr_new_with_capacity 0 ([], []) [ScConsume; ScFlush; ScConsumeSlots 2] cap.

Example C30_hyps_example : cscr_hyps (ref_consumer ex_machine 3) ex_machine (@ref_rel _ _) (@ref_end _ _) ([], []) []
  [ScConsume; ScFlush; ScConsumeSlots 2] 2 12.
Proof.
  unfold cscr_hyps. splits; [apply ref_lawful; lia|apply ref_start|lia| |cbn; lia].
  intros n [H|[H|[H|[]]]]; try discriminate. injection H as <-. lia.
Qed.

Example C30_example :
  let h := [(CConsume 1, CAUnit (Ok tt)); (CConsume 2, CAUnit (Ok tt)); (CConsume 3, CAUnit (Ok tt));
         (CExpose, CASlots (Ok 1)); (CWrite [4], CANone); (CConsumeSlots 1, CAUnit (Ok tt));
         (CBulkConsume [9; 5], CANat (Ok 2)); (CConsume 6, CAUnit (Err 99))] in
  c_client 0 [] h /\ c_consumed [] h = [1; 2; 3; 4; 9; 5] /\
  exists s', c_trace (cscr_consumer false 0 12 (ref_consumer ex_machine 3)) (ex_consumer_scrambled 2) h s' /\
    fst (cs_inner s') = [1; 2; 3; 4].
Proof.
  cbn zeta. splits; [cbn; repeat split; auto; try lia; congruence|reflexivity|].
  eexists. split; [repeat (eapply c_trace_step; [compute_call|]); constructor|reflexivity].
Qed.

Example C30_flush_example :
  let h := [(CConsume 1, CAUnit (Ok tt)); (CConsume 2, CAUnit (Ok tt)); (CConsume 3, CAUnit (Ok tt));
         (CFlush, CAUnit (Ok tt)); (CConsume 4, CAUnit (Ok tt)); (CClose 5, CAUnit (Ok tt))] in
  c_client 0 [] h /\
  exists s', c_trace (cscr_consumer false 0 12 (ref_consumer ex_machine 3)) (ex_consumer_scrambled 2) h s' /\
    fst (cs_inner s') = [1; 2; 3; 4; 5].
Proof.
  cbn zeta. split; [cbn; repeat split; auto|].
  eexists. split; [repeat (eapply c_trace_step; [compute_call|]); constructor|reflexivity].
Qed.

(** *** C31 *)

(** Debug build: [consume] on a full buffer panics whenever the inner consumer accepts what is buffered. *)
Theorem C31_debug_consume_panics :
  forall (S A T F E : Type) (x0 : T) (C : bulk_consumer S T F E) (M : machine A T F E) R D s a pat cap fuel x
    (pend : list T) (k : nat) (w : list T),
  lawful_consumer_core C M R D -> cscr_ops_ok pat -> Datatypes.S cap * length pat <= fuel ->
  cscr_rel R cap pat s a pend k w -> length pend = cap ->
  (forall e a', ~ m_refuses M a pend e a') ->
  cscr_consume true x0 fuel C x s = Panic.
Proof.
  intros S A T F E x0 C M R D s a pat cap fuel x pend k w L Ho Hf HR Hl Hno.
  eapply cscr_consume_panics; eauto.
Qed.
Print Assumptions C31_debug_consume_panics.

Theorem C31_debug_overflow_refuted :
  exists (C : bulk_consumer (list nat * list nat) nat nat nat) (M : machine (list nat) nat nat nat) R D s a cap,
    cscr_hyps C M R D s a [] cap 3 /\
    (forall x b, snd (m_step M x b) = Ok tt) /\
    (exists s', c_trace (cscr_consumer true 0 3 C) (cscr_new_with_capacity 0 s [] cap) [(CConsume 1, CAUnit (Ok tt))] s' /\
       c_consume (cscr_consumer true 0 3 C) 2 s' = Panic) /\
    (exists s', c_trace (cscr_consumer false 0 3 C) (cscr_new_with_capacity 0 s [] cap)
       [(CConsume 1, CAUnit (Ok tt)); (CConsume 2, CAUnit (Ok tt))] s').
Proof.
  set (M := mk_machine (fun (x : nat) a => (a ++ [x], @Ok unit nat tt)) (fun (f : nat) a => (a, Ok tt)) (fun a => (a, Ok tt))).
  exists (ref_consumer M 3), M, (@ref_rel _ _), (@ref_end _ _), ([], []), [], 1.
  split; [|split; [|split]].
  - unfold cscr_hyps. splits; [apply ref_lawful; lia|apply ref_start|lia| |cbn; lia]. intros n [].
  - reflexivity.
  - eexists. split; [repeat (eapply c_trace_step; [compute_call|]); constructor|reflexivity].
  - eexists. repeat (eapply c_trace_step; [compute_call|]); constructor.
Qed.
Print Assumptions C31_debug_overflow_refuted.

(** *** C32 *)

Theorem C32_zero_capacity_producer_panics :
  forall (S T F E : Type) (dbg : bool) (P : bulk_producer S T F E) (x0 : T) s pat fuel,
  p_produce (pscr_producer dbg (Datatypes.S fuel) P) (pscr_new_with_capacity x0 s pat 0) = Panic /\
  p_expose (pscr_producer dbg (Datatypes.S fuel) P) (pscr_new_with_capacity x0 s pat 0) = Panic.
Proof. exact pscr_zero_capacity. Qed.
Print Assumptions C32_zero_capacity_producer_panics.

Theorem C32_zero_capacity_consumer_drops :
  forall (S T F E : Type) (dbg : bool) (C : bulk_consumer S T F E) (x0 : T) s pat fuel x,
  c_consume (cscr_consumer dbg x0 (Datatypes.S fuel) C) x (cscr_new_with_capacity x0 s pat 0) =
    Ret (cscr_new_with_capacity x0 s pat 0, Ok tt) /\
  c_expose (cscr_consumer dbg x0 (Datatypes.S fuel) C) (cscr_new_with_capacity x0 s pat 0) = Panic.
Proof. exact cscr_zero_capacity. Qed.
Print Assumptions C32_zero_capacity_consumer_drops.

Theorem C32_zero_capacity_refuted :
  (exists (s : test_producer_state nat nat nat), tp_rel s [1] (Ok 7) 0 /\
     ~ p_conforms (pscr_producer false 9 test_producer) [PProduce] (pscr_new_with_capacity 0 s [] 0) (PActive [1] (Ok 7) 0)) /\
  (exists s', c_trace (cscr_consumer false 0 9 (ref_consumer ex_machine 3)) (ex_consumer_scrambled 0)
     [(CConsume 1, CAUnit (Ok tt)); (CConsume 2, CAUnit (Ok tt)); (CClose 5, CAUnit (Ok tt))] s' /\
     fst (cs_inner s') = [5]).
Proof.
  split.
  - exists (test_producer_build [1] (Ok 7) None None). split; [now apply tp_rel_build|].
    intros H. inversion H as [|o ops s a HP|o ops s a s1 r a1 HP HD HA HC]; subst; [apply HP; exact I|]. discriminate HD.
  - eexists. split; [repeat (eapply c_trace_step; [compute_call|]); constructor|reflexivity].
Qed.
Print Assumptions C32_zero_capacity_refuted.

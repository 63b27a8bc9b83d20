(** C85: what a call leaves behind that is dropped while it is pending. *)
From Coq Require Import Bool List Arith Lia.
From Coq.Init Require Import Byte.
From Verif Require Import Prelude ListFacts Traits Contracts ContractFacts BasicModel BasicSpec BasicProofs AdaptorModel QueueModel QueueSpec QueueProofs ScramblerModel
  AdaptorSpec BufferedSpec BufferedFacts ScramblerProofs CodecModel EndianModel PropScramblers AsyncModel AsyncSpec AsyncProofs AsyncAdaptorModel AsyncAdaptorProofs AsyncYieldProofs
  AsyncSuspendProofs AsyncCancelSpec AsyncCancelProofs AsyncDropProofs PropAsync.
Import ListNotations.

(** ** C85. [suspended f s] are the states in which [f] returns [Pending], one after the other (C77_suspended). *)

(** Limit: an item counts against the limit from the moment on in which it is asked for. *)
Theorem C85_limit_producer : forall S T F E (P : a_bulk_producer S T F E) i n,
  let L := a_limit_producer P in let with_limit r := map (fun i => mk_limit i r) in
  suspended (ap_produce L) (mk_limit i n) = match n with 0 => [] | Datatypes.S r => with_limit r (suspended (ap_produce P) i) end /\
  suspended (ap_slurp L) (mk_limit i n) = with_limit n (suspended (ap_slurp P) i) /\
  suspended (ap_expose L) (mk_limit i n) = match n with 0 => [] | _ => with_limit n (suspended (ap_expose P) i) end /\
  forall m, suspended (ap_consider L m) (mk_limit i n) = if m <=? n then with_limit (n - m) (suspended (ap_consider P m) i) else [].
Proof.
  intros S T F E P i n. cbv zeta. split; [apply limit_produce_suspended|]. split; [apply lim_suspended|]. split; [|intros m; apply limit_consider_suspended].
  etransitivity; [apply limit_expose_suspended|]. now destruct n.
Qed.
Print Assumptions C85_limit_producer.

Theorem C85_limit_consumer : forall S T F E (C : a_bulk_consumer S T F E) i n,
  let L := a_limit_consumer C in let with_limit r := map (fun i => mk_limit i r) in
  (forall x, suspended (ac_consume L x) (mk_limit i n) = match n with 0 => [] | Datatypes.S r => with_limit r (suspended (ac_consume C x) i) end) /\
  (forall f, suspended (ac_close L f) (mk_limit i n) = with_limit n (suspended (ac_close C f) i)) /\
  suspended (ac_flush L) (mk_limit i n) = with_limit n (suspended (ac_flush C) i) /\
  suspended (ac_expose L) (mk_limit i n) = match n with 0 => [] | _ => with_limit n (suspended (ac_expose C) i) end /\
  forall m, suspended (ac_consume_slots L m) (mk_limit i n) = if m <=? n then with_limit (n - m) (suspended (ac_consume_slots C m) i) else [].
Proof.
  intros S T F E C i n. cbv zeta. split; [intros x; apply limit_consume_suspended|]. split; [intros f; apply limit_close_suspended|].
  split; [apply limit_flush_suspended|]. split; [|intros m; apply limit_consume_slots_suspended].
  etransitivity; [apply limit_slots_suspended|]. now destruct n.
Qed.
Print Assumptions C85_limit_consumer.

(** MapItem: the function is applied to a produced item when the item has been produced, but to a consumed one before it is passed on. *)
Theorem C85_map_item : forall S T U W F E (P : a_buffered_producer S T F E) (C : a_buffered_consumer S U F E) (f : W -> T -> W * U) i w,
  let with_closure w := map (fun i => mk_map_item i w) in
  suspended (ap_produce (a_map_item_producer P f)) (mk_map_item i w) = with_closure w (suspended (ap_produce P) i) /\
  suspended (ap_slurp (a_map_item_producer P f)) (mk_map_item i w) = with_closure w (suspended (ap_slurp P) i) /\
  (forall x, let '(w', y) := f w x in suspended (ac_consume (a_map_item_consumer C f) x) (mk_map_item i w) = with_closure w' (suspended (ac_consume C y) i)) /\
  (forall fin, suspended (ac_close (a_map_item_consumer C f) fin) (mk_map_item i w) = with_closure w (suspended (ac_close C fin) i)) /\
  suspended (ac_flush (a_map_item_consumer C f)) (mk_map_item i w) = with_closure w (suspended (ac_flush C) i).
Proof.
  intros S T U W F E P C f i w. cbv zeta. split; [apply map_item_produce_suspended|]. split; [apply mi_suspended|].
  split; [|split; [intros fin; apply mi_suspended|apply mi_suspended]].
  intros x. destruct (f w x) as [w' y] eqn:Ef. etransitivity; [apply map_item_consume_suspended|]. cbn [mi_closure mi_inner]. now rewrite Ef.
Qed.
Print Assumptions C85_map_item.

(** MapFinal and MapError: the function is taken when there is something to apply it to. A second [close] after a dropped one finds none. *)
Theorem C85_map_final : forall S T F B E (P : a_bulk_producer S T F E) (C : a_bulk_consumer S T B E) i (g : option (F -> B)),
  let with_fun g := map (fun i => mk_with_fun i g) in
  suspended (ap_produce (a_map_final_producer P)) (mk_with_fun i g) = with_fun g (suspended (ap_produce P) i) /\
  suspended (ap_slurp (a_map_final_producer P)) (mk_with_fun i g) = with_fun g (suspended (ap_slurp P) i) /\
  suspended (ap_expose (a_map_final_producer P)) (mk_with_fun i g) = with_fun g (suspended (ap_expose P) i) /\
  (forall n, suspended (ap_consider (a_map_final_producer P) n) (mk_with_fun i g) = with_fun g (suspended (ap_consider P n) i)) /\
  (forall x, suspended (ac_consume (a_map_final_consumer C) x) (mk_with_fun i g) = with_fun g (suspended (ac_consume C x) i)) /\
  (forall fin, suspended (ac_close (a_map_final_consumer C) fin) (mk_with_fun i g) =
     match g with Some f => with_fun None (suspended (ac_close C (f fin)) i) | None => [] end) /\
  suspended (ac_flush (a_map_final_consumer C)) (mk_with_fun i g) = with_fun g (suspended (ac_flush C) i) /\
  suspended (ac_expose (a_map_final_consumer C)) (mk_with_fun i g) = with_fun g (suspended (ac_expose C) i) /\
  forall n, suspended (ac_consume_slots (a_map_final_consumer C) n) (mk_with_fun i g) = with_fun g (suspended (ac_consume_slots C n) i).
Proof.
  intros S T F B E P C i g. cbv zeta. split; [apply map_final_call_suspended|]. split; [apply wf_suspended|]. split; [apply map_final_call_suspended|].
  split; [intros; apply wf_suspended|]. split; [intros; apply wf_suspended|]. split; [intros; apply map_final_close_suspended|].
  split; [apply wf_suspended|]. split; [apply wf_suspended|intros; apply wf_suspended].
Qed.
Print Assumptions C85_map_final.

Theorem C85_map_error : forall S T F B E (P : a_bulk_producer S T F E) (C : a_bulk_consumer S T F E) i (g : option (E -> B)),
  let with_fun := map (fun i => mk_with_fun i g) in
  suspended (ap_produce (a_map_error_producer P)) (mk_with_fun i g) = with_fun (suspended (ap_produce P) i) /\
  suspended (ap_slurp (a_map_error_producer P)) (mk_with_fun i g) = with_fun (suspended (ap_slurp P) i) /\
  suspended (ap_expose (a_map_error_producer P)) (mk_with_fun i g) = with_fun (suspended (ap_expose P) i) /\
  (forall n, suspended (ap_consider (a_map_error_producer P) n) (mk_with_fun i g) = with_fun (suspended (ap_consider P n) i)) /\
  (forall x, suspended (ac_consume (a_map_error_consumer C) x) (mk_with_fun i g) = with_fun (suspended (ac_consume C x) i)) /\
  (forall fin, suspended (ac_close (a_map_error_consumer C) fin) (mk_with_fun i g) = with_fun (suspended (ac_close C fin) i)) /\
  suspended (ac_flush (a_map_error_consumer C)) (mk_with_fun i g) = with_fun (suspended (ac_flush C) i) /\
  suspended (ac_expose (a_map_error_consumer C)) (mk_with_fun i g) = with_fun (suspended (ac_expose C) i) /\
  forall n, suspended (ac_consume_slots (a_map_error_consumer C) n) (mk_with_fun i g) = with_fun (suspended (ac_consume_slots C n) i).
Proof. intros S T F B E P C i g. cbv zeta. repeat split; intros; apply map_error_call_suspended. Qed.
Print Assumptions C85_map_error.

(** Invariant: it counts what is considered produced or consumed at once, and it is inactive as soon as [close] is called. *)
Theorem C85_invariant_producer : forall S T F E (P : a_bulk_producer S T F E) i n,
  let V := a_invariant_producer P in let active n := map (fun i => mk_invariant i true n) in
  suspended (ap_produce V) (mk_invariant i true n) = active n (suspended (ap_produce P) i) /\
  suspended (ap_slurp V) (mk_invariant i true n) = active n (suspended (ap_slurp P) i) /\
  suspended (ap_expose V) (mk_invariant i true n) = active n (suspended (ap_expose P) i) /\
  forall m, suspended (ap_consider V m) (mk_invariant i true n) = if m <=? n then active (n - m) (suspended (ap_consider P m) i) else [].
Proof.
  intros S T F E P i n. cbv zeta. set (s := mk_invariant i true n). split; [exact (invariant_produce_suspended P s)|]. split; [exact (invariant_unit_suspended (ap_slurp P) s)|].
  split; [exact (invariant_expose_suspended P s)|intros m; exact (invariant_consider_suspended P m s)].
Qed.
Print Assumptions C85_invariant_producer.

Theorem C85_invariant_consumer : forall S T F E (C : a_bulk_consumer S T F E) i n,
  let V := a_invariant_consumer C in let active n := map (fun i => mk_invariant i true n) in
  (forall x, suspended (ac_consume V x) (mk_invariant i true n) = active n (suspended (ac_consume C x) i)) /\
  (forall f, suspended (ac_close V f) (mk_invariant i true n) = map (fun i => mk_invariant i false n) (suspended (ac_close C f) i)) /\
  suspended (ac_flush V) (mk_invariant i true n) = active n (suspended (ac_flush C) i) /\
  suspended (ac_expose V) (mk_invariant i true n) = active n (suspended (ac_expose C) i) /\
  forall m, suspended (ac_consume_slots V m) (mk_invariant i true n) = if m <=? n then active (n - m) (suspended (ac_consume_slots C m) i) else [].
Proof.
  intros S T F E C i n. cbv zeta. set (s := mk_invariant i true n). split; [intros x; exact (invariant_unit_suspended (ac_consume C x) s)|]. split; [intros f; exact (invariant_close_suspended C f s)|].
  split; [exact (invariant_unit_suspended (ac_flush C) s)|]. split; [exact (invariant_slots_suspended C s)|intros m; exact (invariant_consume_slots_suspended C m s)].
Qed.
Print Assumptions C85_invariant_consumer.

(** The provided bulk methods. *)
Theorem C85_bulk_methods : forall S T F E (expose : fut S (res (list T + F) E)) (consider : nat -> fut S (res unit E))
    (expose_slots : fut S (res nat E)) (write : list T -> S -> S) (consume_slots : nat -> fut S (res unit E)) (buf : list T) s,
  suspended (a_bulk_produce expose consider buf) s =
    suspended expose s ++ match run expose s with
                          | Ret (s', Ok (inl items)) => suspended (consider (Nat.min (length items) (length buf))) s'
                          | _ => []
                          end /\
  suspended (a_bulk_consume expose_slots write consume_slots buf) s =
    suspended expose_slots s ++ match run expose_slots s with
                                | Ret (s', Ok slots) => let n := Nat.min slots (length buf) in suspended (consume_slots n) (write (firstn n buf) s')
                                | _ => []
                                end.
Proof. intros. split; [apply bulk_produce_suspended|apply bulk_consume_suspended]. Qed.
Print Assumptions C85_bulk_methods.

(** The methods for whole slices. A caller who drops them does not learn how many items the object has taken, or given away, before. *)
Theorem C85_consume_slices : forall S A T F E (C : a_bulk_consumer S T F E) (M : machine A T F E) R D fuel buf s a k w s',
  lawful_consumer (blocking_bulk_consumer C) M R D -> R s a k w ->
  (In s' (suspended (a_consume_full_slice C buf) s) ->
     exists done x todo a' s0 k0 w0, buf = done ++ x :: todo /\ m_feed M done a = (a', length done, None) /\ R s0 a' k0 w0 /\ In s' (suspended (ac_consume C x) s0)) /\
  (In s' (suspended (a_bulk_consume_full_slice fuel C buf) s) ->
     exists done todo a' s0 k0 w0, buf = done ++ todo /\ todo <> [] /\ m_feed M done a = (a', length done, None) /\ R s0 a' k0 w0 /\
       In s' (suspended (ac_bulk_consume C todo) s0)).
Proof.
  intros S A T F E C M R D fuel buf s a k w s' L HR. split; intros H; [eapply consume_full_slice_suspended; eassumption|].
  exact (@bulk_consume_full_slice_suspended S A T F E C M R D L fuel [] buf s a a k w eq_refl HR s' H).
Qed.
Print Assumptions C85_consume_slices.

Theorem C85_produce_slices : forall S T F E (P : a_bulk_producer S T F E) R D fuel buf s xs l k s',
  lawful_producer (blocking_bulk_producer P) R D -> R s xs l k ->
  suspended (a_produce_item P) s = suspended (ap_produce P) s /\
  (In s' (suspended (a_overwrite_full_slice P buf) s) ->
     exists done rest s0 k0, xs = done ++ rest /\ length done < length buf /\ R s0 rest l k0 /\ In s' (suspended (ap_produce P) s0)) /\
  (In s' (suspended (a_bulk_overwrite_full_slice fuel P buf) s) ->
     exists done rest s0 k0 buf', xs = done ++ rest /\ length done + length buf' = length buf /\ buf' <> [] /\ R s0 rest l k0 /\
       In s' (suspended (ap_bulk_produce P buf') s0)).
Proof.
  intros S T F E P R D fuel buf s xs l k s' L HR. split; [apply produce_item_suspended|]. split; intros H; [eapply overwrite_full_slice_suspended; eassumption|].
  exact (@bulk_overwrite_full_slice_suspended S T F E P R D L fuel 0 buf s xs l k HR (Nat.le_0_l _) s' H).
Qed.
Print Assumptions C85_produce_slices.

(** The bounded pipes, which stop at [count] items. *)
Theorem C85_bounded_pipes : forall SP SC A T F PE CE (P : a_bulk_producer SP T F PE) R D (C : a_bulk_consumer SC T F CE) (M : machine A T F CE) RC DC
    count fuel sp sc xs l k a kk w sp' sc',
  lawful_producer (blocking_bulk_producer P) R D -> lawful_consumer (blocking_bulk_consumer C) M RC DC -> R sp xs l k -> RC sc a kk w ->
  (In (sp', sc') (suspended (a_pipe_at_most P C count) (sp, sc)) -> pipe_at_most_interrupted P R D C M RC count xs l a sp' sc') /\
  (In (sp', sc') (suspended (a_bulk_pipe_at_most fuel P C count) (sp, sc)) -> bulk_pipe_at_most_interrupted P R D C M RC count xs l a sp' sc').
Proof.
  intros SP SC A T F PE CE P R D C M RC DC count fuel sp sc xs l k a kk w sp' sc' LP LC HR HC. split; intros H.
  - exact (@pipe_at_most_suspended _ _ _ _ _ _ _ P R D C M RC DC LP LC count 0 sp sc [] xs l k a a kk w HR HC eq_refl sp' sc' H).
  - exact (@bulk_pipe_at_most_suspended _ _ _ _ _ _ _ P R D C M RC DC LP LC count fuel sp sc [] xs l k a a kk w HR HC eq_refl sp' sc' H).
Qed.
Print Assumptions C85_bounded_pipes.

(** The scramblers. [h] are the calls so far. *)
Theorem C85_producer_scrambler : forall S T F E dbg (P : a_bulk_producer S T F E) R D (x0 : T) s xs l k pat cap fuel h s1 ys l' k1 s',
  let SP := a_pscr_producer dbg fuel P in
  lawful_producer_core (blocking_bulk_producer P) R D -> R s xs l k ->
  1 <= cap -> (forall n, In (ScConsiderProduced n) pat -> 1 <= n) ->
  (lawful_slurp (blocking_bulk_producer P) R D \/ ~ In ScSlurp pat) ->
  Datatypes.S cap * Datatypes.S (length pat) <= fuel ->
  ~ In PSlurp (map fst h) ->
  p_history (blocking_bulk_producer SP) (pscr_new_with_capacity x0 s pat cap) (PActive xs l 0) h s1 (PActive ys l' k1) ->
  In s' (suspended (ap_produce SP) s1) \/ In s' (suspended (ap_slurp SP) s1) \/ In s' (suspended (ap_expose SP) s1) \/
  (exists buf, In s' (suspended (ap_bulk_produce SP buf) s1)) ->
  xs = p_emitted [] h ++ ys /\ pscr_interrupted P R D ys l s'.
Proof.
  intros S T F E dbg P R D x0 s xs l k pat cap fuel h s1 ys l' k1 s' SP L HR Hc Hn LS Hf Hops HH Hin.
  assert (HF : Forall pscr_op_ok pat) by (apply Forall_forall; intros [| |] Hi; cbn; auto).
  assert (Hf' : Datatypes.S cap * length (pscr_operations pat) <= fuel) by (pose proof (pscr_operations_length pat); nia).
  assert (LS' : lawful_slurp (blocking_bulk_producer P) R D \/ ~ In ScSlurp (pscr_operations pat)).
  { destruct LS as [LS|LS]; [left; exact LS|right]. intros H. apply LS. now apply pscr_operations_slurp. }
  assert (HL : lawful_producer (blocking_bulk_producer SP) (pscr_rel R D cap (pscr_operations pat)) (pscr_end D)).
  { eapply same_lawful_producer; [apply same_pscr_producer|]. apply (@pscr_lawful _ _ _ _ dbg (blocking_bulk_producer P) R D L cap (pscr_operations pat) LS'); [now apply pscr_operations_ok|exact Hf']. }
  assert (HR' : p_rel (pscr_rel R D cap (pscr_operations pat)) (pscr_end D) s1 (PActive ys l' k1)).
  { eapply lawful_p_history with (4 := HH); [exact HL|now right|]. cbn. eapply pscr_new_rel; eauto. }
  pose proof (p_history_emits (Nat.le_0_l _) HH) as HE. cbn [firstn] in HE. destruct HE as (HE & Hl & _). subst l'.
  split; [symmetry; exact HE|]. eapply (@pscr_suspended _ _ _ _ dbg P R D L cap (pscr_operations pat) LS' (pscr_operations_ok HF)); [exact Hf'|exact HR'|exact Hin].
Qed.
Print Assumptions C85_producer_scrambler.

Theorem C85_consumer_scrambler : forall S A T F E (x0 : T) (C : a_bulk_consumer S T F E) (M : machine A T F E) R D s a pat cap fuel h s1,
  let SC := a_cscr_consumer false x0 fuel C in
  cscr_hyps (blocking_bulk_consumer C) M R D s a pat cap fuel ->
  c_trace (blocking_bulk_consumer SC) (cscr_new_with_capacity x0 s pat cap) h s1 -> c_client 0 [] h ->
  (exists out pend a', out ++ pend = c_consumed [] h /\ queued (cs_buffer s1) pend /\ m_forwards M a out a' /\ forall s',
     (* [consume] and [expose_slots] call the inner consumer only when the queue is full *)
     ((exists x, In s' (suspended (ac_consume SC x) s1)) \/ In s' (suspended (ac_expose SC) s1) -> length pend = cap /\ cscr_interrupted C M R pend a' s') /\
     (In s' (suspended (ac_flush SC) s1) -> cscr_interrupted C M R pend a' s' \/ cscr_finishing M R (ac_flush C) pend a' s') /\
     (forall f, In s' (suspended (ac_close SC f) s1) -> cscr_interrupted C M R pend a' s' \/ cscr_finishing M R (ac_close C f) pend a' s')) \/
  (exists h0 o r, h = h0 ++ [(o, r)] /\ c_ends o r = true).
Proof.
  intros S A T F E x0 C M R D s a pat cap fuel h s1 SC HH HT HC. pose proof HH as (L & HR0 & Hc & Hn & Hf).
  assert (HF : Forall cscr_op_ok pat) by (apply Forall_forall; intros [| |] Hi; cbn; auto). pose proof (cscr_operations_ok HF) as OK.
  assert (Hf' : Datatypes.S cap * length (cscr_operations pat) <= fuel) by (pose proof (cscr_operations_length pat); nia).
  destruct (cscr_hyps_buffers S A T F E x0 (blocking_bulk_consumer C) M R D s a pat cap fuel HH) as [HB HR].
  assert (HT' : c_trace (cscr_consumer false x0 fuel (blocking_bulk_consumer C)) (cscr_new_with_capacity x0 s pat cap) h s1).
  { eapply same_c_trace; [apply same_cscr_consumer|exact HT]. }
  destruct (buffers_trace HB HT' HC HR) as ([a' pend k w|a'] & H1 & H2).
  - left. destruct (b_run_active (pend := []) (Nat.le_0_l _) H1) as (out & H3 & H4 & H5). cbn [b_rel] in H2.
    exists out, pend, a'. split; [exact H3|]. split; [eapply fixed_queued; exact (proj1 (proj1 H2))|]. split; [exact H5|]. intros s'. split; [|split].
    + intros [(x & Hin)|Hin]; [exact (cscr_consume_suspended _ _ _ _ _ _ L _ _ OK _ _ _ _ _ _ _ H2 _ Hin)|exact (cscr_expose_suspended _ _ _ _ _ _ L _ _ OK _ _ _ _ _ _ H2 _ Hin)].
    + intros Hin. exact (cscr_finish_suspended _ _ _ _ _ _ L _ _ OK _ _ _ _ _ _ _ Hf' H2 _ Hin).
    + intros f Hin. exact (cscr_finish_suspended _ _ _ _ _ _ L _ _ OK _ _ _ _ _ _ _ Hf' H2 _ Hin).
  - right. destruct (b_run_ended (pend := []) (Nat.le_0_l _) H1) as (h0 & o & r & -> & H3). exists h0, o, r. split; [reflexivity|].
    destruct H3 as [(f & a1 & -> & _)|[(e & He & _)|(e & a1 & -> & -> & _)]]; [reflexivity| |reflexivity].
    destruct r as [[|]|[|]|[|]|]; cbn in He; try discriminate; destruct o; reflexivity.
Qed.
Print Assumptions C85_consumer_scrambler.

(** The codecs for numbers: a dropped decoder has taken some of the bytes of the number, a dropped encoder has written some. *)
Theorem C85_endian_decode : forall S F E (P : a_bulk_producer S byte F E) R D (n : wrapper) s xs l k s',
  lawful_producer (blocking_bulk_producer P) R D -> R s xs l k ->
  In s' (suspended (a_endian_decode n P) s) ->
  exists done rest s0 k0 buf, xs = done ++ rest /\ length done + length buf = BITS (wrapped n) / 8 /\ buf <> [] /\ R s0 rest l k0 /\
    In s' (suspended (ap_bulk_produce P buf) s0).
Proof.
  intros S F E P R D n s xs l k s' L HR Hin. unfold a_endian_decode in Hin. rewrite suspended_first in Hin.
  - destruct (proj2 (proj2 (C85_produce_slices _ _ _ _ P R D _ _ s xs l k s' L HR)) Hin) as (done & rest & s0 & k0 & buf & H1 & H2 & H3 & H4 & H5).
    rewrite repeat_length in H2. exists done, rest, s0, k0, buf. now repeat split.
  - intros [bytes r]. po.
Qed.
Print Assumptions C85_endian_decode.

Theorem C85_endian_encode : forall S A F E (C : a_bulk_consumer S byte F E) (M : machine A byte F E) R D (n : wrapper) v s a k w s',
  lawful_consumer (blocking_bulk_consumer C) M R D -> R s a k w ->
  In s' (suspended (a_endian_encode n C v) s) ->
  exists done todo a' s0 k0 w0, to_bytes n v = done ++ todo /\ todo <> [] /\ m_feed M done a = (a', length done, None) /\ R s0 a' k0 w0 /\
    In s' (suspended (ac_bulk_consume C todo) s0).
Proof.
  intros S A F E C M R D n v s a k w s' L HR Hin. unfold a_endian_encode in Hin. rewrite suspended_first in Hin by po.
  exact (proj2 (C85_consume_slices _ _ _ _ _ C M R D _ _ s a k w s' L HR) Hin).
Qed.
Print Assumptions C85_endian_encode.

(** So an adaptor around an object that does nothing before it returns [Pending] may have done something. A Limit counts an item that it does
    not produce, *)
Theorem C85_waiting_limit_refuted : exists (s : limit (test_producer_state nat nat nat)) s',
  waiting_producer (@a_test_producer nat nat nat) tp_rel /\ In s' (suspended (ap_produce (a_limit_producer a_test_producer)) s) /\
  test_producer_build [1; 2] (Ok 9) None (Some [true; false]) = lim_inner s /\
  run (a_overwrite_full_slice (a_limit_producer a_test_producer) [0; 0]) s <> run (a_overwrite_full_slice (a_limit_producer a_test_producer) [0; 0]) s' /\
  lim_remaining s = 2 /\ lim_remaining s' = 1.
Proof.
  set (s := mk_limit (test_producer_build [1; 2] (Ok 9) None (Some [true; false])) 2 : limit (test_producer_state nat nat nat)).
  exists s. eexists. split; [apply test_producer_waiting|]. split; [|split; [reflexivity|]].
  - unfold s. rewrite (proj1 (C85_limit_producer _ _ _ _ _ _ _)). cbv iota. apply in_map. vm_compute. left. reflexivity.
  - split; [|split; reflexivity]. intros H. apply (f_equal (fun o => match o with Ret (_, (buf, _)) => Some buf | _ => None end)) in H. vm_compute in H. discriminate H.
Qed.
Print Assumptions C85_waiting_limit_refuted.

(** and a scrambler can lose an item that an earlier call has consumed successfully. The first [consume] succeeds; the second one is dropped. *)
Definition dropped_scrambler : outcome (res unit nat * res unit nat * outcome (list nat)) :=
  let SC := a_cscr_consumer false 0 10 (a_test_consumer 0) in
  let* (s, r1) := run (ac_consume SC 1) (cscr_new_with_capacity 0 (test_consumer_build 0 10 None (Some [true; false])) [ScConsume] 1) in
  let* (s, _) := polls 1 (ac_consume SC 2) s in
  let* (s, r2) := run (ac_close SC tt) s in
  Ret (r1, r2, test_consumer_consumed (cs_inner s)).
Theorem C85_dropped_scrambler_refuted : exists items, dropped_scrambler = Ret (Ok tt, Ok tt, Ret items) /\ ~ In 1 items.
Proof. exists []. split; [vm_compute; reflexivity|intros []]. Qed.
Print Assumptions C85_dropped_scrambler_refuted.

(** ** Examples *)

(** A [produce] through a Limit of two, whose inner producer returns [Pending] twice: *)
Definition ex_waiting : test_producer_state nat nat nat := test_producer_build [1; 2; 3] (Ok 9) (Some [2]) (Some [true; true; false]).
Example ex_limit : map (fun s => (test_producer_remaining (lim_inner s), lim_remaining s)) (suspended (ap_produce (a_limit_producer a_test_producer)) (mk_limit ex_waiting 2)) =
  [(Ret [1; 2; 3], 1); (Ret [1; 2; 3], 1)].
Proof. vm_compute. reflexivity. Qed.

(** The bulk version of [overwrite_full_slice], in its second round: *)
Example ex_slice : map test_producer_remaining (suspended (a_bulk_overwrite_full_slice 5 a_test_producer [0; 0; 0]) ex_waiting) =
  [Ret [1; 2; 3]; Ret [1; 2; 3]; Ret [1; 2; 3]; Ret [1; 2; 3]; Ret [3]; Ret [3]; Ret [3]; Ret [3]].
Proof. vm_compute. reflexivity. Qed.
Example ex_slice_applies : forall s', In s' (suspended (a_bulk_overwrite_full_slice 5 a_test_producer [0; 0; 0]) ex_waiting) ->
  exists done rest, [1; 2; 3] = done ++ rest /\ length done < 3 /\ test_producer_remaining s' = Ret rest.
Proof.
  intros s' H. assert (Hp : Forall (fun n => 1 <= n) [2]) by (repeat constructor).
  destruct (proj2 (proj2 (C85_produce_slices _ _ _ _ _ _ _ 5 [0; 0; 0] ex_waiting [1; 2; 3] (Ok 9) 0 s' (a_test_producer_lawful) (@tp_rel_build nat nat nat [1; 2; 3] (Ok 9) (Some [2]) (Some [true; true; false]) Hp))) H)
    as (done & rest & s0 & k0 & buf & H1 & H2 & H3 & H4 & H5).
  destruct (@test_producer_waiting nat nat nat s0 rest (Ok 9) k0 s' H4) as (k1 & HR); [do 4 right; now exists buf|].
  exists done, rest. split; [exact H1|]. split; [destruct buf; [congruence|cbn in H2; lia]|]. exact (proj1 (tp_rel_accessors _ _ _ _ HR)).
Qed.

(** [pipe_at_most] with two items, and a consumer that returns [Pending] once per call: *)
Example ex_at_most : map (fun s => (test_producer_remaining (fst s), test_consumer_consumed (snd s)))
    (suspended (a_pipe_at_most a_test_producer (a_test_consumer 0) 2) (test_producer_build [1; 2; 3] (Ok 9) None None : test_producer_state nat nat nat, test_consumer_build 0 10 None (Some [true; false]) : test_consumer_state nat nat nat)) =
  [(Ret [2; 3], Ret []); (Ret [3], Ret [1])].
Proof. vm_compute. reflexivity. Qed.
Example ex_bulk_at_most : map (fun s => (test_producer_remaining (fst s), test_consumer_consumed (snd s)))
    (suspended (a_bulk_pipe_at_most 5 a_test_producer (a_test_consumer 0) 2) (ex_waiting, test_consumer_build 0 10 (Some [1]) None : test_consumer_state nat nat nat)) =
  [(Ret [1; 2; 3], Ret []); (Ret [1; 2; 3], Ret []); (Ret [1; 2; 3], Ret [1]); (Ret [1; 2; 3], Ret [1]);
   (Ret [2; 3], Ret [1]); (Ret [2; 3], Ret [1]); (Ret [2; 3], Ret [1; 2]); (Ret [2; 3], Ret [1; 2])].
Proof. vm_compute. reflexivity. Qed.

(** A scrambled producer while it fills its queue: *)
Example ex_scrambler : map (fun s => (test_producer_remaining (ps_inner s), fx_amount (ps_buffer s)))
    (suspended (ap_produce (a_pscr_producer true 20 a_test_producer)) (pscr_new_with_capacity 0 ex_waiting [ScProduce; ScConsiderProduced 2] 3)) =
  [(Ret [1; 2; 3], 0); (Ret [1; 2; 3], 0); (Ret [2; 3], 1); (Ret [2; 3], 1); (Ret [2; 3], 3); (Ret [2; 3], 3)].
Proof. vm_compute. reflexivity. Qed.
Example ex_scrambler_applies : forall s',
  In s' (suspended (ap_produce (a_pscr_producer true 20 a_test_producer)) (pscr_new_with_capacity 0 ex_waiting [ScProduce; ScConsiderProduced 2] 3)) ->
  pscr_interrupted a_test_producer tp_rel (@tp_end nat nat nat) [1; 2; 3] (Ok 9) s'.
Proof.
  intros s' H. assert (Hp : Forall (fun n => 1 <= n) [2]) by (repeat constructor).
  refine (proj2 (C85_producer_scrambler _ _ _ _ true a_test_producer tp_rel (@tp_end nat nat nat) 0 ex_waiting [1; 2; 3] (Ok 9) 0 [ScProduce; ScConsiderProduced 2] 3 20 []
    _ [1; 2; 3] (Ok 9) 0 s' a_test_producer_lawful (@tp_rel_build nat nat nat [1; 2; 3] (Ok 9) (Some [2]) (Some [true; true; false]) Hp) _ _ _ _ _ _ (or_introl H))).
  - lia.
  - intros n [Hn|[Hn|[]]]; [discriminate|injection Hn as <-; lia].
  - right. intros [Hn|[Hn|[]]]; discriminate.
  - cbn. lia.
  - intros [].
  - constructor.
Qed.
(** A scrambled consumer whose queue is full: *)
Example ex_consumer_scrambler : map (fun s => (test_consumer_consumed (cs_inner s), fx_amount (cs_buffer s)))
    (match run (ac_bulk_consume (a_cscr_consumer false 0 20 (a_test_consumer 0)) [1; 2; 3])
             (cscr_new_with_capacity 0 (test_consumer_build 0 10 None (Some [true; false]) : test_consumer_state nat unit nat) [ScConsume; ScConsumeSlots 2] 3) with
     | Ret (s, _) => suspended (ac_consume (a_cscr_consumer false 0 20 (a_test_consumer 0)) 4) s
     | _ => []
     end) = [(Ret [], 2); (Ret [1], 2); (Ret [1], 0)].
Proof. vm_compute. reflexivity. Qed.
Example ex_consumer_scrambler_hyps :
  cscr_hyps (blocking_bulk_consumer (@a_test_consumer nat unit nat 0)) (failing_machine nat unit 0) (tc_rel 0) (tc_end 0)
    (test_consumer_build 0 10 None (Some [true; false])) (mk_tstate [] None 10 false) [ScConsume; ScConsumeSlots 2] 3 20.
Proof.
  unfold cscr_hyps. split; [apply a_test_consumer_lawful|]. split; [now apply tc_rel_build|]. split; [lia|]. split; [|cbn; lia].
  intros n [Hn|[Hn|[]]]; [discriminate|injection Hn as <-; lia].
Qed.

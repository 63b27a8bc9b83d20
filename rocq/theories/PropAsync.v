(** C76: the functions of the library, poll by poll, and run to completion. C77: suspended pipes. *)
From Coq Require Import Bool List Arith Lia.
From Coq.Init Require Import Byte.
From Verif Require Import Prelude ListFacts Traits Contracts ContractFacts BasicModel BasicSpec BasicProofs AdaptorModel SliceModel
  ScramblerModel CodecModel EndianModel AsyncModel AsyncAdaptorModel AsyncSpec AsyncProofs AsyncAdaptorProofs AsyncYieldProofs
  AsyncCountProofs AsyncSuspendProofs.
Import ListNotations.

(** ** C76 *)

(** However often a future is polled, its remaining polls lead where the future as a whole leads, and after [pendings] polls, it is ready. *)
Theorem C76_executor : forall S X (f : fut S X) s,
  (forall n, match polls n f s with
             | Ret (s', Ready x) => run f s = Ret (s', x)
             | Ret (s', Pending _ f') => run f s = run f' s'
             | Panic => run f s = Panic
             | NoFuel => run f s = NoFuel
             end) /\
  (forall n, match polls n f s with Ret (_, Pending _ _) => n <= pendings f s | _ => pendings f s < n end).
Proof. intros S X f s. split; intros n; [apply polls_run|apply polls_pendings]. Qed.
Print Assumptions C76_executor.

(** An executor that polls a future only after its waker was called drives it to completion if every [Pending] is preceded by such a call. *)
Theorem C76_block_on : forall S X (f : fut S X) s, pending_only (eq true) f -> forall n, pendings f s < n -> block_on n f s = run f s.
Proof. exact block_on_run. Qed.
Print Assumptions C76_block_on.

(** The provided methods of the traits, with the futures of the required ones run to completion. *)
Theorem C76_provided_methods : forall S T F E,
  (forall (expose : fut S (res (list T + F) E)) consider buf s,
     run (a_bulk_produce expose consider buf) s = default_bulk_produce (run expose) (fun n => run (consider n)) buf s) /\
  (forall (expose : fut S (res nat E)) (write : list T -> S -> S) slots buf s,
     run (a_bulk_consume expose write slots buf) s = default_bulk_consume (run expose) write (fun n => run (slots n)) buf s) /\
  (forall (C : a_consumer S T F E) buf s, run (a_consume_full_slice C buf) s = consume_full_slice (blocking_consumer C) buf s) /\
  (forall (C : a_bulk_consumer S T F E) fuel buf s,
     run (a_bulk_consume_full_slice fuel C buf) s = bulk_consume_full_slice fuel (blocking_bulk_consumer C) buf s) /\
  (forall (P : a_producer S T F E) s, run (a_produce_item P) s = produce_item (blocking_producer P) s) /\
  (forall (P : a_producer S T F E) buf s, run (a_overwrite_full_slice P buf) s = overwrite_full_slice (blocking_producer P) buf s) /\
  (forall (P : a_bulk_producer S T F E) fuel buf s,
     run (a_bulk_overwrite_full_slice fuel P buf) s = bulk_overwrite_full_slice fuel (blocking_bulk_producer P) buf s).
Proof.
  intros S T F E. split; [intros; apply run_bulk_produce|]. split; [intros; apply run_bulk_consume|]. split; [intros; apply run_consume_full_slice|].
  split; [intros; apply run_bulk_consume_full_slice|]. split; [intros; apply run_produce_item|].
  split; [intros; apply run_overwrite_full_slice|intros; apply run_bulk_overwrite_full_slice].
Qed.
Print Assumptions C76_provided_methods.

(** The pipes. *)
Theorem C76_pipes : forall SP SC T F PE CE fuel count sp sc,
  (forall (P : a_producer SP T F PE) (C : a_consumer SC T F CE),
     run (a_pipe fuel P C) (sp, sc) = pipe fuel (blocking_producer P) (blocking_consumer C) sp sc /\
     run (a_pipe_at_most P C count) (sp, sc) = pipe_at_most (blocking_producer P) (blocking_consumer C) count sp sc) /\
  (forall (P : a_bulk_producer SP T F PE) (C : a_bulk_consumer SC T F CE),
     run (a_bulk_pipe fuel P C) (sp, sc) = bulk_pipe fuel (blocking_bulk_producer P) (blocking_bulk_consumer C) sp sc /\
     run (a_bulk_pipe_at_most fuel P C count) (sp, sc) = bulk_pipe_at_most fuel (blocking_bulk_producer P) (blocking_bulk_consumer C) count sp sc).
Proof.
  intros SP SC T F PE CE fuel count sp sc. split; intros P C; (split; [try apply run_pipe; apply run_bulk_pipe|try apply run_pipe_at_most; apply run_bulk_pipe_at_most]).
Qed.
Print Assumptions C76_pipes.

(** The producers and consumers of slices and vectors. *)
Theorem C76_basics : forall T F E (d : T),
  same_bulk_producer (blocking_bulk_producer (@a_from_slice T)) from_slice_producer /\
  same_bulk_producer (blocking_bulk_producer (@a_empty T F E)) empty_producer /\
  same_bulk_consumer (blocking_bulk_consumer (a_into_vec d)) (into_vec_consumer d) /\
  same_bulk_consumer (blocking_bulk_consumer (@a_into_slice T)) into_slice_consumer.
Proof. intros T F E d. split; [apply same_from_slice|]. split; [apply same_empty|]. split; [apply same_into_vec|apply same_into_slice]. Qed.
Print Assumptions C76_basics.

(** The adaptors, around any objects. *)
Theorem C76_producer_adaptors : forall S T F E U W B (f : W -> T -> W * U) (P : a_bulk_producer S T F E),
  same_bulk_producer (blocking_bulk_producer (a_limit_producer P)) (limit_producer (blocking_bulk_producer P)) /\
  same_buffered_producer (blocking_buffered_producer (a_map_item_producer P f)) (map_item_producer (blocking_buffered_producer P) f) /\
  same_bulk_producer (blocking_bulk_producer (@a_map_final_producer S T F B E P)) (map_final_producer (blocking_bulk_producer P)) /\
  same_bulk_producer (blocking_bulk_producer (@a_map_error_producer S T F E B P)) (map_error_producer (blocking_bulk_producer P)) /\
  same_bulk_producer (blocking_bulk_producer (a_invariant_producer P)) (invariant_producer (blocking_bulk_producer P)) /\
  (forall dbg fuel, same_bulk_producer (blocking_bulk_producer (a_pscr_producer dbg fuel P)) (pscr_producer dbg fuel (blocking_bulk_producer P))).
Proof.
  intros. split; [apply same_limit_producer|]. split; [apply same_map_item_producer|]. split; [apply same_map_final_producer|].
  split; [apply same_map_error_producer|]. split; [apply same_invariant_producer|intros; apply same_pscr_producer].
Qed.
Print Assumptions C76_producer_adaptors.

Theorem C76_consumer_adaptors : forall S T F E U W B (f : W -> U -> W * T) (C : a_bulk_consumer S T F E),
  same_bulk_consumer (blocking_bulk_consumer (a_limit_consumer C)) (limit_consumer (blocking_bulk_consumer C)) /\
  same_buffered_consumer (blocking_buffered_consumer (a_map_item_consumer C f)) (map_item_consumer (blocking_buffered_consumer C) f) /\
  same_bulk_consumer (blocking_bulk_consumer (@a_map_final_consumer S T F B E C)) (map_final_consumer (blocking_bulk_consumer C)) /\
  same_bulk_consumer (blocking_bulk_consumer (@a_map_error_consumer S T F E B C)) (map_error_consumer (blocking_bulk_consumer C)) /\
  same_bulk_consumer (blocking_bulk_consumer (a_invariant_consumer C)) (invariant_consumer (blocking_bulk_consumer C)) /\
  (forall dbg d fuel, same_bulk_consumer (blocking_bulk_consumer (a_cscr_consumer dbg d fuel C)) (cscr_consumer dbg d fuel (blocking_bulk_consumer C))).
Proof.
  intros. split; [apply same_limit_consumer|]. split; [apply same_map_item_consumer|]. split; [apply same_map_final_consumer|].
  split; [apply same_map_error_consumer|]. split; [apply same_invariant_consumer|intros; apply same_cscr_consumer].
Qed.
Print Assumptions C76_consumer_adaptors.

(** The codecs. *)
Theorem C76_codecs : forall w, completes_encode (a_endian_encode w) (endian_encode w) /\ completes_decode (a_endian_decode w) (endian_decode w).
Proof. intros w. split; [apply endian_encode_completes|apply endian_decode_completes]. Qed.
Print Assumptions C76_codecs.

Theorem C76_codec_adaptors : forall S F E V O RT,
  (forall a_encode encode (C : a_bulk_consumer S byte F E), @completes_encode V a_encode encode ->
     same_buffered_consumer (blocking_buffered_consumer (a_encoder a_encode C)) (encoder encode (blocking_bulk_consumer C))) /\
  (forall a_decode decode (P : a_bulk_producer S byte F E), @completes_decode V O a_decode decode ->
     same_buffered_producer (blocking_buffered_producer (a_decoder a_decode P)) (decoder decode (blocking_bulk_producer P))) /\
  (forall (a_encode : RT -> _) encode (C : a_bulk_consumer S byte F E), (forall r, @completes_encode V (a_encode r) (encode r)) ->
     same_buffered_consumer (blocking_buffered_consumer (a_relative_encoder a_encode C)) (relative_encoder encode (blocking_bulk_consumer C))) /\
  (forall (a_decode : RT -> _) decode (P : a_bulk_producer S byte F E), (forall r, @completes_decode V O (a_decode r) (decode r)) ->
     same_buffered_producer (blocking_buffered_producer (a_relative_decoder a_decode P)) (relative_decoder decode (blocking_bulk_producer P))).
Proof.
  intros S F E V O RT. split; [intros; now apply same_encoder|]. split; [intros; now apply same_decoder|].
  split; [intros; now apply same_relative_encoder|intros; now apply same_relative_decoder].
Qed.
Print Assumptions C76_codec_adaptors.

(** The test objects. Before they return [Pending], they call the waker. *)
Theorem C76_test_objects : forall T F E (d : T),
  same_bulk_producer (blocking_bulk_producer (@a_test_producer T F E)) test_producer /\
  same_bulk_consumer (blocking_bulk_consumer (@a_test_consumer T F E d)) (test_consumer d) /\
  bulk_producer_pending (eq true) (@a_test_producer T F E) /\ bulk_consumer_pending (eq true) (@a_test_consumer T F E d).
Proof.
  intros T F E d. split; [apply same_test_producer|]. split; [apply same_test_consumer|]. split; [apply pending_test_producer|apply pending_test_consumer].
Qed.
Print Assumptions C76_test_objects.

(** The methods of the test objects return [Pending] as often as the pattern says: once for every [true] before the next [false]. *)
Theorem C76_test_objects_yield : forall T F E (d : T) pattern k i,
  (forall j, j < k -> nth_error pattern ((i + j) mod length pattern) = Some true) -> nth_error pattern ((i + k) mod length pattern) = Some false ->
  i < length pattern -> k < length pattern ->
  (forall s : test_producer_state T F E, tp_yielder s = Some (mk_yielder pattern i) ->
     pendings (ap_produce a_test_producer) s = k /\ pendings (ap_slurp a_test_producer) s = k /\ pendings (ap_expose a_test_producer) s = k /\
     forall n, pendings (ap_consider a_test_producer n) s = k) /\
  (forall s : test_consumer_state T F E, tc_yielder s = Some (mk_yielder pattern i) ->
     (forall x, pendings (ac_consume (a_test_consumer d) x) s = k) /\ (forall f, pendings (ac_close (a_test_consumer d) f) s = k) /\
     pendings (ac_flush (a_test_consumer d)) s = k /\ pendings (ac_expose (a_test_consumer d)) s = k /\
     forall n, pendings (ac_consume_slots (a_test_consumer d) n) s = k).
Proof.
  intros T F E d pattern k i H1 H2 H3 H4.
  assert (HY : length (suspended a_maybe_yield (Some (mk_yielder pattern i))) = k).
  { rewrite suspended_length. unfold a_maybe_yield. rewrite pendings_await. cbn [run]. rewrite run_get. cbn [pendings get sync bind Nat.add].
    rewrite pendings_within by reflexivity. unfold a_yielder_maybe_yield. rewrite pendings_await, run_get. cbn [pendings get sync bind Nat.add y_pattern].
    now apply pendings_yield_polls. }
  split; intros s Hs.
  - split; [|split; [|split; [|intros n]]]; rewrite <- suspended_length;
      rewrite ?tp_produce_suspended, ?tp_slurp_suspended, ?tp_expose_suspended, ?tp_consider_suspended, map_length, Hs; exact HY.
  - split; [intros x|split; [intros f|split; [|split; [|intros n]]]]; rewrite <- suspended_length;
      rewrite ?tc_consume_suspended, ?tc_close_suspended, ?tc_flush_suspended, ?tc_expose_suspended, ?tc_slots_suspended, map_length, Hs; exact HY.
Qed.
Print Assumptions C76_test_objects_yield.

(** Nothing else in the library returns [Pending] on its own account: not at all, if the objects that are used do not, and only
    after the waker was called, if this is so for the objects that are used. *)
Theorem C76_pending_pipes : forall Q SP SC T F PE CE fuel count (P : a_bulk_producer SP T F PE) (C : a_bulk_consumer SC T F CE),
  bulk_producer_pending Q P -> bulk_consumer_pending Q C ->
  pending_only Q (a_pipe fuel P C) /\ pending_only Q (a_bulk_pipe fuel P C) /\
  pending_only Q (a_pipe_at_most P C count) /\ pending_only Q (a_bulk_pipe_at_most fuel P C count).
Proof.
  intros Q SP SC T F PE CE fuel count P C HP HC. split; [apply po_pipe; [apply HP|apply HC]|]. split; [now apply po_bulk_pipe|].
  split; [apply po_pipe_at_most; [apply HP|apply HC]|now apply po_bulk_pipe_at_most].
Qed.
Print Assumptions C76_pending_pipes.

Theorem C76_pending_producers : forall Q S T F E U W B (f : W -> T -> W * U) (P : a_bulk_producer S T F E), bulk_producer_pending Q P ->
  bulk_producer_pending Q (a_limit_producer P) /\ buffered_producer_pending Q (a_map_item_producer P f) /\
  bulk_producer_pending Q (@a_map_final_producer S T F B E P) /\ bulk_producer_pending Q (@a_map_error_producer S T F E B P) /\
  bulk_producer_pending Q (a_invariant_producer P) /\ (forall dbg fuel, bulk_producer_pending Q (a_pscr_producer dbg fuel P)) /\
  (forall fuel buf, pending_only Q (a_overwrite_full_slice P buf) /\ pending_only Q (a_bulk_overwrite_full_slice fuel P buf)) /\
  pending_only Q (a_produce_item P) /\ bulk_producer_pending Q (@a_from_slice T) /\ bulk_producer_pending Q (@a_empty T F E).
Proof.
  intros Q S T F E U W B f P HP. split; [now apply pending_limit_producer|]. split; [apply pending_map_item_producer; apply HP|].
  split; [now apply pending_map_final_producer|]. split; [now apply pending_map_error_producer|]. split; [now apply pending_invariant_producer|].
  split; [intros; now apply pending_pscr|]. split; [intros; split; [apply po_overwrite_full_slice; apply HP|now apply po_bulk_overwrite_full_slice]|].
  split; [apply po_produce_item; apply HP|]. split; [apply pending_from_slice|apply pending_empty].
Qed.
Print Assumptions C76_pending_producers.

Theorem C76_pending_consumers : forall Q S T F E U W B (f : W -> U -> W * T) (C : a_bulk_consumer S T F E), bulk_consumer_pending Q C ->
  bulk_consumer_pending Q (a_limit_consumer C) /\ buffered_consumer_pending Q (a_map_item_consumer C f) /\
  bulk_consumer_pending Q (@a_map_final_consumer S T F B E C) /\ bulk_consumer_pending Q (@a_map_error_consumer S T F E B C) /\
  bulk_consumer_pending Q (a_invariant_consumer C) /\ (forall dbg d fuel, bulk_consumer_pending Q (a_cscr_consumer dbg d fuel C)) /\
  (forall fuel buf, pending_only Q (a_consume_full_slice C buf) /\ pending_only Q (a_bulk_consume_full_slice fuel C buf)) /\
  (forall d : T, bulk_consumer_pending Q (a_into_vec d)) /\ bulk_consumer_pending Q (@a_into_slice T).
Proof.
  intros Q S T F E U W B f C HC. split; [now apply pending_limit_consumer|]. split; [apply pending_map_item_consumer; apply HC|].
  split; [now apply pending_map_final_consumer|]. split; [now apply pending_map_error_consumer|]. split; [now apply pending_invariant_consumer|].
  split; [intros; now apply pending_cscr|]. split; [intros; split; [apply po_consume_full_slice; apply HC|now apply po_bulk_consume_full_slice]|].
  split; [intros d; apply pending_into_vec|apply pending_into_slice].
Qed.
Print Assumptions C76_pending_consumers.

Theorem C76_pending_codecs : forall w, encode_pending (a_endian_encode w) /\ decode_pending (a_endian_decode w) /\
  encode_counts (a_endian_encode w) /\ decode_counts (a_endian_decode w).
Proof.
  intros w. split; [apply endian_encode_pending|]. split; [apply endian_decode_pending|]. split; [apply endian_encode_counts|apply endian_decode_counts].
Qed.
Print Assumptions C76_pending_codecs.

Theorem C76_pending_codec_adaptors : forall Q S F E V O RT,
  (forall e (C : a_bulk_consumer S byte F E), @encode_pending V e -> bulk_consumer_pending Q C -> buffered_consumer_pending Q (a_encoder e C)) /\
  (forall e (P : a_bulk_producer S byte F E), @decode_pending V O e -> bulk_producer_pending Q P -> buffered_producer_pending Q (a_decoder e P)) /\
  (forall (e : RT -> _) (C : a_bulk_consumer S byte F E), (forall r, @encode_pending V (e r)) -> bulk_consumer_pending Q C ->
     buffered_consumer_pending Q (a_relative_encoder e C)) /\
  (forall (e : RT -> _) (P : a_bulk_producer S byte F E), (forall r, @decode_pending V O (e r)) -> bulk_producer_pending Q P ->
     buffered_producer_pending Q (a_relative_decoder e P)).
Proof.
  intros Q S F E V O RT. split; [intros; now apply pending_encoder|]. split; [intros; now apply pending_decoder|].
  split; [intros; now apply pending_relative_encoder|intros; now apply pending_relative_decoder].
Qed.
Print Assumptions C76_pending_codec_adaptors.

(** Nor do they return [Pending] more often or less often than the objects that are used. *)
Theorem C76_count_pipes : forall SP SC T F PE CE mp mc fuel count (P : a_bulk_producer SP T F PE) (C : a_bulk_consumer SC T F CE),
  bulk_producer_counts mp P -> bulk_consumer_counts mc C ->
  let m := fun s => mp (fst s) + mc (snd s) in
  counts m (a_pipe fuel P C) /\ counts m (a_bulk_pipe fuel P C) /\
  counts m (a_pipe_at_most P C count) /\ counts m (a_bulk_pipe_at_most fuel P C count).
Proof.
  intros SP SC T F PE CE mp mc fuel count P C HP HC m. split; [apply ct_pipe; [apply HP|apply HC]|]. split; [now apply ct_bulk_pipe|].
  split; [apply ct_pipe_at_most; [apply HP|apply HC]|now apply ct_bulk_pipe_at_most].
Qed.
Print Assumptions C76_count_pipes.

Theorem C76_count_producers : forall S T F E U W B m (f : W -> T -> W * U) (P : a_bulk_producer S T F E), bulk_producer_counts m P ->
  bulk_producer_counts (fun s => m (lim_inner s)) (a_limit_producer P) /\
  buffered_producer_counts (fun s => m (mi_inner s)) (a_map_item_producer P f) /\
  bulk_producer_counts (fun s => m (wf_inner s)) (@a_map_final_producer S T F B E P) /\
  bulk_producer_counts (fun s => m (wf_inner s)) (@a_map_error_producer S T F E B P) /\
  bulk_producer_counts (fun s => m (inv_inner s)) (a_invariant_producer P) /\
  (forall dbg fuel, bulk_producer_counts (fun s => m (ps_inner s)) (a_pscr_producer dbg fuel P)) /\
  (forall fuel buf, counts m (a_overwrite_full_slice P buf) /\ counts m (a_bulk_overwrite_full_slice fuel P buf)) /\
  counts m (a_produce_item P).
Proof.
  intros S T F E U W B m f P HP. split; [now apply counts_limit_producer|]. split; [apply counts_map_item_producer; apply HP|].
  split; [now apply counts_map_final_producer|]. split; [now apply counts_map_error_producer|]. split; [now apply counts_invariant_producer|].
  split; [intros; now apply counts_pscr|]. split; [intros; split; [apply ct_overwrite_full_slice; apply HP|now apply ct_bulk_overwrite_full_slice]|].
  apply ct_produce_item; apply HP.
Qed.
Print Assumptions C76_count_producers.

Theorem C76_count_consumers : forall S T F E U W B m (f : W -> U -> W * T) (C : a_bulk_consumer S T F E), bulk_consumer_counts m C ->
  bulk_consumer_counts (fun s => m (lim_inner s)) (a_limit_consumer C) /\
  buffered_consumer_counts (fun s => m (mi_inner s)) (a_map_item_consumer C f) /\
  bulk_consumer_counts (fun s => m (wf_inner s)) (@a_map_final_consumer S T F B E C) /\
  bulk_consumer_counts (fun s => m (wf_inner s)) (@a_map_error_consumer S T F E B C) /\
  bulk_consumer_counts (fun s => m (inv_inner s)) (a_invariant_consumer C) /\
  (forall dbg d fuel, bulk_consumer_counts (fun s => m (cs_inner s)) (a_cscr_consumer dbg d fuel C)) /\
  (forall fuel buf, counts m (a_consume_full_slice C buf) /\ counts m (a_bulk_consume_full_slice fuel C buf)).
Proof.
  intros S T F E U W B m f C HC. split; [now apply counts_limit_consumer|]. split; [apply counts_map_item_consumer; apply HC|].
  split; [now apply counts_map_final_consumer|]. split; [now apply counts_map_error_consumer|]. split; [now apply counts_invariant_consumer|].
  split; [intros; now apply counts_cscr|]. intros; split; [apply ct_consume_full_slice; apply HC|now apply ct_bulk_consume_full_slice].
Qed.
Print Assumptions C76_count_consumers.

Theorem C76_count_codec_adaptors : forall S F E V O RT m,
  (forall e (C : a_bulk_consumer S byte F E), @encode_counts V e -> bulk_consumer_counts m C -> buffered_consumer_counts m (a_encoder e C)) /\
  (forall e (P : a_bulk_producer S byte F E), @decode_counts V O e -> bulk_producer_counts m P -> buffered_producer_counts m (a_decoder e P)) /\
  (forall (e : RT -> _) (C : a_bulk_consumer S byte F E), (forall r, @encode_counts V (e r)) -> bulk_consumer_counts m C ->
     buffered_consumer_counts (fun s => m (rel_inner s)) (a_relative_encoder e C)) /\
  (forall (e : RT -> _) (P : a_bulk_producer S byte F E), (forall r, @decode_counts V O (e r)) -> bulk_producer_counts m P ->
     buffered_producer_counts (fun s => m (rel_inner s)) (a_relative_decoder e P)).
Proof.
  intros S F E V O RT m. split; [intros; now apply counts_encoder|]. split; [intros; now apply counts_decoder|].
  split; [intros; now apply counts_relative_encoder|intros; now apply counts_relative_decoder].
Qed.
Print Assumptions C76_count_codec_adaptors.

(** ** C77 *)

(** The states in which a polled future is [Pending] are the [suspended] ones. *)
Theorem C77_suspended : forall S X (f : fut S X) n s s' w f', polls (Datatypes.S n) f s = Ret (s', Pending w f') -> nth_error (suspended f s) n = Some s'.
Proof. exact polls_suspended. Qed.
Print Assumptions C77_suspended.

(** Whenever a pipe returns [Pending], everything that was produced has been consumed, apart from an item that [consume] is just being
    called with. *)
Theorem C77_pipe : forall SP SC A T F PE CE (P : a_bulk_producer SP T F PE) R D (C : a_bulk_consumer SC T F CE) (M : machine A T F CE) RC DC
    fuel sp sc xs l k a kk w sp' sc',
  lawful_producer (blocking_bulk_producer P) R D -> lawful_consumer (blocking_bulk_consumer C) M RC DC -> R sp xs l k -> RC sc a kk w ->
  In (sp', sc') (suspended (a_pipe fuel P C) (sp, sc)) -> pipe_interrupted P R D C M RC xs l a sp' sc'.
Proof. intros. eapply pipe_suspended; eassumption. Qed.
Print Assumptions C77_pipe.

Theorem C77_bulk_pipe : forall SP SC A T F PE CE (P : a_bulk_producer SP T F PE) R D (C : a_bulk_consumer SC T F CE) (M : machine A T F CE) RC DC
    fuel sp sc xs l k a kk w sp' sc',
  lawful_producer (blocking_bulk_producer P) R D -> lawful_consumer (blocking_bulk_consumer C) M RC DC -> R sp xs l k -> RC sc a kk w ->
  In (sp', sc') (suspended (a_bulk_pipe fuel P C) (sp, sc)) -> bulk_pipe_interrupted P R D C M RC xs l a sp' sc'.
Proof. intros. eapply bulk_pipe_suspended; eassumption. Qed.
Print Assumptions C77_bulk_pipe.

(** The test objects have not done anything yet when they return [Pending]. *)
Theorem C77_test_objects : forall T F E (d : T) (error : E),
  waiting_producer (@a_test_producer T F E) tp_rel /\ waiting_consumer (@a_test_consumer T F E d) (tc_rel error).
Proof. intros T F E d error. split; [apply test_producer_waiting|apply test_consumer_waiting]. Qed.
Print Assumptions C77_test_objects.

Theorem C77_waiting : forall SP SC A T F PE CE (P : a_bulk_producer SP T F PE) R D (C : a_bulk_consumer SC T F CE) (M : machine A T F CE) RC xs l a sp sc,
  waiting_producer P R -> waiting_consumer C RC ->
  (pipe_interrupted P R D C M RC xs l a sp sc ->
    exists ys rest a' kk w, xs = ys ++ rest /\ m_feed M ys a = (a', length ys, None) /\ RC sc a' kk w /\
      ((exists k, R sp rest l k) \/ (exists x rest' k, rest = x :: rest' /\ R sp rest' l k) \/ (exists f, rest = [] /\ l = Ok f /\ D sp))) /\
  (bulk_pipe_interrupted P R D C M RC xs l a sp sc ->
    exists ys rest n a' kk w, xs = ys ++ rest /\ n <= length rest /\ m_feed M (ys ++ firstn n rest) a = (a', length ys + n, None) /\ RC sc a' kk w /\
      ((exists k, R sp rest l k) \/ (exists f, rest = [] /\ l = Ok f /\ D sp))).
Proof.
  intros SP SC A T F PE CE P R D C M RC xs l a sp sc WP WC.
  split; intros H; [exact (pipe_waiting _ _ _ _ _ _ WP WC _ _ _ _ _ H)|exact (bulk_pipe_waiting _ _ _ _ _ _ WP WC _ _ _ _ _ H)].
Qed.
Print Assumptions C77_waiting.

(** What one sees when looking at the test objects while a pipe between them is suspended. *)
Theorem C77_test_pipe : forall T F PE CE (d : T) items (last : res F PE) psizes ppattern (error : CE) n csizes cpattern fuel sp sc,
  (match psizes with Some l => Forall (fun n => 1 <= n) l | None => True end) ->
  (match csizes with Some l => Forall (fun n => 1 <= n) l | None => True end) ->
  In (sp, sc) (suspended (a_pipe fuel a_test_producer (a_test_consumer d))
    (test_producer_build items last psizes ppattern, test_consumer_build error n csizes cpattern)) ->
  exists ys rest, items = ys ++ rest /\ test_consumer_consumed sc = Ret ys /\ test_consumer_final_consumed sc = None /\ test_consumer_did_error sc = false /\
    ((test_producer_remaining sp = Ret rest /\ test_producer_peek_last sp = Some last) \/
     (exists x rest', rest = x :: rest' /\ test_producer_remaining sp = Ret rest' /\ test_producer_peek_last sp = Some last) \/
     (exists f, rest = [] /\ last = Ok f /\ test_producer_peek_last sp = None)).
Proof.
  intros T F PE CE d items last psizes ppattern error n csizes cpattern fuel sp sc H1 H2 H3.
  exact (test_pipe_suspended d items last psizes ppattern error n csizes cpattern fuel sp sc H1 H2 H3).
Qed.
Print Assumptions C77_test_pipe.

Theorem C77_test_bulk_pipe : forall T F PE CE (d : T) items (last : res F PE) psizes ppattern (error : CE) n csizes cpattern fuel sp sc,
  (match psizes with Some l => Forall (fun n => 1 <= n) l | None => True end) ->
  (match csizes with Some l => Forall (fun n => 1 <= n) l | None => True end) ->
  In (sp, sc) (suspended (a_bulk_pipe fuel a_test_producer (a_test_consumer d))
    (test_producer_build items last psizes ppattern, test_consumer_build error n csizes cpattern)) ->
  exists ys rest m, items = ys ++ rest /\ m <= length rest /\ test_consumer_consumed sc = Ret (ys ++ firstn m rest) /\
    test_consumer_final_consumed sc = None /\ test_consumer_did_error sc = false /\
    ((test_producer_remaining sp = Ret rest /\ test_producer_peek_last sp = Some last) \/
     (exists f, rest = [] /\ last = Ok f /\ test_producer_peek_last sp = None)).
Proof.
  intros T F PE CE d items last psizes ppattern error n csizes cpattern fuel sp sc H1 H2 H3.
  exact (test_bulk_pipe_suspended d items last psizes ppattern error n csizes cpattern fuel sp sc H1 H2 H3).
Qed.
Print Assumptions C77_test_bulk_pipe.

(** Pipes are not to be dropped before they are done, and the documentation of the crate says so (ufotofu/src/lib.rs 33): *)
Definition dropped_pipe (n : nat) (ppattern cpattern : option (list bool)) : outcome (res unit (pipe_error nat nat) * outcome (list nat)) :=
  let s := (test_producer_build [1; 2; 3] (Ok 9) (Some [2]) ppattern, test_consumer_build 0 10 (Some [2]) cpattern) in
  let* (s, _) := polls n (a_pipe 10 a_test_producer (a_test_consumer 0)) s in
  let* (s, r) := run (a_pipe 10 a_test_producer (a_test_consumer 0)) s in
  Ret (r, test_consumer_consumed (snd s)).

Definition dropped_bulk_pipe (n : nat) (ppattern cpattern : option (list bool)) : outcome (res unit (pipe_error nat nat) * outcome (list nat)) :=
  let s := (test_producer_build [1; 2; 3] (Ok 9) (Some [2]) ppattern, test_consumer_build 0 10 (Some [2]) cpattern) in
  let* (s, _) := polls n (a_bulk_pipe 10 a_test_producer (a_test_consumer 0)) s in
  let* (s, r) := run (a_bulk_pipe 10 a_test_producer (a_test_consumer 0)) s in
  Ret (r, test_consumer_consumed (snd s)).

(** dropping a pipe and starting over with another one can lose an item, *)
Theorem C77_dropped_pipe_refuted : exists n ppattern cpattern, dropped_pipe n ppattern cpattern <> Ret (Ok tt, Ret [1; 2; 3]).
Proof. exists 1, None, (Some [true; false]). vm_compute. discriminate. Qed.
Print Assumptions C77_dropped_pipe_refuted.

(** and in the case of [bulk_pipe], items can come twice. *)
Theorem C77_dropped_bulk_pipe_refuted : exists n ppattern cpattern, dropped_bulk_pipe n ppattern cpattern <> Ret (Ok tt, Ret [1; 2; 3]).
Proof. exists 2, (Some [true; false]), None. vm_compute. discriminate. Qed.
Print Assumptions C77_dropped_bulk_pipe_refuted.

(** ** Examples *)

(** Three items, with a producer that yields twice before every second call, and a consumer that yields once before every call. *)
Definition ex_start : test_producer_state nat nat nat * test_consumer_state nat nat nat :=
  (test_producer_build [1; 2; 3] (Ok 9) (Some [2]) (Some [false; true; true]), test_consumer_build 0 10 (Some [2]) (Some [true; false])).
Definition ex_pipe : fut (test_producer_state nat nat nat * test_consumer_state nat nat nat) (res unit (pipe_error nat nat)) :=
  a_pipe 10 a_test_producer (a_test_consumer 0).
Definition ex_view {X} (o : outcome (test_producer_state nat nat nat * test_consumer_state nat nat nat * X)) :=
  match o with
  | Ret (sp, sc, _) => Some (test_producer_remaining sp, test_consumer_consumed sc, test_consumer_final_consumed sc)
  | _ => None
  end.

Example ex_pendings : pendings ex_pipe ex_start = 10.
Proof. vm_compute. reflexivity. Qed.
Example ex_polls : map (fun n => ex_view (polls n ex_pipe ex_start)) [0; 1; 2; 3; 4; 10; 11] =
  [Some (Ret [1; 2; 3], Ret [], None); Some (Ret [2; 3], Ret [], None); Some (Ret [2; 3], Ret [1], None); Some (Ret [2; 3], Ret [1], None);
   Some (Ret [3], Ret [1], None); Some (Ret [], Ret [1; 2; 3], None); Some (Ret [], Ret [1; 2; 3], Some 9)].
Proof. vm_compute. reflexivity. Qed.
Example ex_block_on : block_on 11 ex_pipe ex_start = run ex_pipe ex_start /\ ex_view (block_on 11 ex_pipe ex_start) = Some (Ret [], Ret [1; 2; 3], Some 9).
Proof.
  split; [|vm_compute; reflexivity]. apply C76_block_on.
  - apply C76_pending_pipes; [exact 0|apply (C76_test_objects nat nat nat 0)|apply (C76_test_objects nat nat nat 0)].
  - rewrite ex_pendings. lia.
Qed.

(** A future that returns [Pending] without calling the waker is not completed. *)
Definition forgetful : fut nat nat := Fut (fun s => Ret (s + 1, Pending false (Fut (fun s => Ret (s, Ready s))))).
Example ex_forgetful : block_on 5 forgetful 7 = NoFuel /\ run forgetful 7 = Ret (8, 8) /\ ~ pending_only (eq true) forgetful.
Proof. split; [reflexivity|]. split; [reflexivity|]. intros H. destruct (H 0) as [H1 _]. discriminate H1. Qed.

(** The pattern [true; true; false; true] from its position 3 on: three times [true], then [false]. *)
Example ex_yield : forall s : test_consumer_state nat nat nat, tc_yielder s = Some (mk_yielder [true; true; false; true] 3) ->
  pendings (ac_flush (a_test_consumer 0)) s = 3.
Proof.
  intros s Hs. refine (proj1 (proj2 (proj2 (proj2 (C76_test_objects_yield nat nat nat 0 [true; true; false; true] 3 3 _ _ _ _) s Hs)))); cbn; try lia; try reflexivity.
  intros j Hj. destruct j as [|[|[|j]]]; try reflexivity. lia.
Qed.

(** Objects with counters. *)
Definition tick {X} (g : nat * list nat -> outcome (nat * list nat * X)) : fut (nat * list nat) X :=
  Fut (fun s => Ret (s, Pending true (Fut (fun s => let* (s, x) := g s in Ret ((Datatypes.S (fst s), snd s), Ready x))))).
Definition ticking_producer : a_bulk_producer (nat * list nat) nat unit nat :=
  a_bulk_producer_of
    (tick (fun s => match snd s with [] => Ret (s, Ok (inr tt)) | x :: r => Ret ((fst s, r), Ok (inl x)) end))
    (tick (fun s => Ret (s, Ok tt)))
    (tick (fun s => match snd s with [] => Ret (s, Ok (inr tt)) | r => Ret (s, Ok (inl r)) end))
    (fun n => tick (fun s => Ret ((fst s, skipn n (snd s)), Ok tt))).
Lemma tick_counts : forall X (g : nat * list nat -> outcome (nat * list nat * X)), (forall s s' x, g s = Ret (s', x) -> fst s' = fst s) -> counts fst (tick g).
Proof.
  intros X g H s s' x HR. cbn in *. destruct (g s) as [[s1 y]| |] eqn:E1; cbn in *; try discriminate HR. injection HR as <- <-. cbn. rewrite (H _ _ _ E1). lia.
Qed.
Example ex_ticking : bulk_producer_counts fst ticking_producer.
Proof.
  assert (H1 : counts fst (ap_produce ticking_producer)).
  { apply tick_counts. intros s s' x H. destruct (snd s); injection H as <- _; reflexivity. }
  assert (H2 : counts fst (ap_slurp ticking_producer)) by (apply tick_counts; intros s s' x H; injection H as <- _; reflexivity).
  assert (H3 : counts fst (ap_expose ticking_producer)).
  { apply tick_counts. intros s s' x H. destruct (snd s); injection H as <- _; reflexivity. }
  assert (H4 : forall n, counts fst (ap_consider ticking_producer n)) by (intros n; apply tick_counts; intros s s' x H; injection H as <- _; reflexivity).
  split; [split; assumption|]. split; [assumption|]. split; [assumption|]. intros buf. now apply ct_bulk_produce.
Qed.
(** Four items are asked for. The limit is three, so its inner producer is asked, and returns [Pending], three times. *)
Example ex_limit_count : forall s' r,
  run (a_overwrite_full_slice (a_limit_producer ticking_producer) [0; 0; 0; 0]) (mk_limit (5, [1; 2; 3; 4; 5]) 3) = Ret (s', r) -> fst (lim_inner s') = 8.
Proof.
  intros s' r H. pose proof (proj1 (C76_count_producers _ _ _ _ nat unit unit fst (fun w x => (w, x)) ticking_producer ex_ticking)) as HL.
  destruct (C76_count_producers _ _ _ _ nat unit unit _ (fun w x => (w, x)) _ HL) as (_ & _ & _ & _ & _ & _ & HO & _).
  rewrite (proj1 (HO 0 _) _ _ _ H). vm_compute. reflexivity.
Qed.

(** The rules of C77 apply to the pipe above. *)
Example ex_suspended : map (fun s => ex_view (Ret (s, tt))) (firstn 3 (suspended ex_pipe ex_start)) =
  [Some (Ret [2; 3], Ret [], None); Some (Ret [2; 3], Ret [1], None); Some (Ret [2; 3], Ret [1], None)].
Proof. vm_compute. reflexivity. Qed.
Example ex_interrupted : forall sp sc, In (sp, sc) (suspended ex_pipe ex_start) ->
  exists ys rest, [1; 2; 3] = ys ++ rest /\ test_consumer_consumed sc = Ret ys.
Proof.
  intros sp sc H. destruct (C77_test_pipe nat nat nat nat 0 [1; 2; 3] (Ok 9) (Some [2]) (Some [false; true; true]) 0 10 (Some [2]) (Some [true; false]) 10 sp sc)
    as (ys & rest & H1 & H2 & _); [repeat constructor|repeat constructor|exact H|]. now exists ys, rest.
Qed.
Example ex_dropped : dropped_pipe 1 None (Some [true; false]) = Ret (Ok tt, Ret [2; 3]) /\
  dropped_pipe 1 (Some [true; false]) None = Ret (Ok tt, Ret [1; 2; 3]) /\
  dropped_bulk_pipe 2 (Some [true; false]) None = Ret (Ok tt, Ret [1; 2; 1; 2; 3]).
Proof. vm_compute. auto. Qed.

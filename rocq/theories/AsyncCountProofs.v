(** How often futures return [Pending]. *)
From Coq Require Import Bool List Arith Lia.
From Coq.Init Require Import Byte.
From Verif Require Import Prelude QueueModel Traits BasicModel AdaptorModel ScramblerModel CodecModel EndianModel SliceModel.
From Verif Require Import AsyncModel AsyncAdaptorModel AsyncSpec AsyncProofs.
Import ListNotations.

Lemma pendings_await : forall S X Y (f : fut S X) (k : X -> fut S Y) s,
  pendings (await f k) s = pendings f s + match run f s with Ret (s', x) => pendings (k x) s' | _ => 0 end.
Proof.
  intros S X Y. fix IH 1. intros [p] k s. cbn. destruct (p s) as [[s' [x|w f']]| |] eqn:E1; cbn; try reflexivity.
  - destruct (k x) as [q]. reflexivity.
  - now rewrite IH.
Qed.

Lemma pendings_sync : forall S X (g : S -> outcome (S * X)) s, pendings (sync g) s = 0.
Proof. intros S X g s. cbn. destruct (g s) as [[s' x]| |]; reflexivity. Qed.

Lemma pendings_within : forall S I X (field : S -> I) (set : I -> S -> S), (forall i s, field (set i s) = i) ->
  forall (f : fut I X) s, pendings (within field set f) s = pendings f (field s).
Proof.
  intros S I X field set H1. fix IH 1. intros [p] s. cbn. destruct (p (field s)) as [[i [x|w f']]| |] eqn:E1; cbn; try reflexivity.
  rewrite IH. now rewrite H1.
Qed.

(** The count after running from one state. *)
Definition counts_at {S X} (m : S -> nat) (f : fut S X) (s : S) : Prop := forall s' x, run f s = Ret (s', x) -> m s' = m s + pendings f s.

Section Count.
  Context {S : Type} (m : S -> nat).

  Lemma counts_all : forall X (f : fut S X), (forall s, counts_at m f s) -> counts m f.
  Proof. intros X f H s. apply H. Qed.
  Lemma counts_one : forall X (f : fut S X) s, counts m f -> counts_at m f s.
  Proof. intros X f s H. exact (H s). Qed.

  Lemma ca_await : forall X Y (f : fut S X) (k : X -> fut S Y) s,
    counts_at m f s -> (forall s' x, run f s = Ret (s', x) -> counts_at m (k x) s') -> counts_at m (await f k) s.
  Proof.
    intros X Y f k s Hf Hk s' y H. rewrite run_await in H. rewrite pendings_await. destruct (run f s) as [[s1 x]| |] eqn:E1; try discriminate H.
    cbn [bind] in H. rewrite (Hk _ _ eq_refl _ _ H), (Hf _ _ E1). lia.
  Qed.

  Lemma ca_sync : forall X (g : S -> outcome (S * X)) s, (forall s' x, g s = Ret (s', x) -> m s' = m s) -> counts_at m (sync g) s.
  Proof. intros X g s H s' x H1. rewrite run_sync in H1. rewrite pendings_sync, (H _ _ H1). lia. Qed.
  Lemma ca_ret : forall X (x : X) s, counts_at m (ret x) s.
  Proof. intros X x s. apply ca_sync. intros s' y H. now injection H as <- <-. Qed.
  Lemma ca_attempt : forall X (o : outcome X) s, counts_at m (attempt o) s.
  Proof. intros X o s. apply ca_sync. intros s' y H. destruct o; try discriminate H. now injection H as <- <-. Qed.
  Lemma ca_out_of_fuel : forall X s, counts_at m (out_of_fuel (X := X)) s.
  Proof. intros X s. apply ca_sync. intros s' y H. discriminate H. Qed.

  Lemma ca_get_bind : forall Y (k : S -> fut S Y) s, counts_at m (k s) s -> counts_at m (await get k) s.
  Proof.
    intros Y k s H. apply ca_await; [apply ca_sync; intros s' x E1; now injection E1 as <- <-|].
    intros s' x E1. rewrite run_get in E1. now injection E1 as <- <-.
  Qed.
  Lemma ca_put_bind : forall Y (k : unit -> fut S Y) s1 s, m s1 = m s -> counts_at m (k tt) s1 -> counts_at m (await (put s1) k) s.
  Proof.
    intros Y k s1 s H0 H. apply ca_await; [apply ca_sync; intros s' x E1; now injection E1 as <- <-|].
    intros s' x E1. rewrite run_put in E1. now injection E1 as <- <-.
  Qed.
  Lemma ca_ret_bind : forall X Y (x : X) (k : X -> fut S Y) s, counts_at m (k x) s -> counts_at m (await (ret x) k) s.
  Proof. intros X Y x k s H. apply ca_await; [apply ca_ret|]. intros s' y E1. rewrite run_ret in E1. now injection E1 as <- <-. Qed.
  Lemma ca_attempt_bind : forall X Y (o : outcome X) (k : X -> fut S Y) s,
    (forall x, o = Ret x -> counts_at m (k x) s) -> counts_at m (await (attempt o) k) s.
  Proof.
    intros X Y o k s H. apply ca_await; [apply ca_attempt|]. intros s' y E1. rewrite run_attempt in E1.
    destruct o; try discriminate E1. injection E1 as <- <-. now apply H.
  Qed.
  Lemma ca_sync_bind : forall X Y (g : S -> outcome (S * X)) (k : X -> fut S Y) s,
    (forall s' x, g s = Ret (s', x) -> m s' = m s) -> (forall s' x, g s = Ret (s', x) -> counts_at m (k x) s') -> counts_at m (await (sync g) k) s.
  Proof. intros X Y g k s H1 H2. apply ca_await; [now apply ca_sync|]. intros s' x E1. rewrite run_sync in E1. now apply H2. Qed.

  Lemma ca_within : forall I (mi : I -> nat) X (field : S -> I) (set : I -> S -> S) (f : fut I X) s,
    (forall i s, field (set i s) = i) -> (forall i j s, set i (set j s) = set i s) -> (forall i s, m (set i s) + mi (field s) = m s + mi i) ->
    counts mi f -> counts_at m (within field set f) s.
  Proof.
    intros I mi X field set f s H1 H2 H3 H s' x E1. rewrite run_within in E1 by assumption. rewrite pendings_within by assumption.
    destruct (run f (field s)) as [[i y]| |] eqn:E2; try discriminate E1. cbn [bind] in E1. injection E1 as <- <-.
    pose proof (H _ _ _ E2). pose proof (H3 i s). lia.
  Qed.
End Count.

(** A step that is not asynchronous. *)
Ltac cstep := intros; repeat match goal with
  | H : bind ?o _ = Ret _ |- _ => destruct o eqn:?; cbn [bind] in H; try discriminate H
  | p : (_ * _)%type |- _ => destruct p
  | H : (if ?b then _ else _) = Ret _ |- _ => destruct b; try discriminate H
  | H : (match ?x with _ => _ end) = Ret _ |- _ => destruct x; try discriminate H
  | H : Ret _ = Ret _ |- _ => first [injection H as ? ? | injection H as ?]; subst
  end; try reflexivity; try (cbn; reflexivity).
Ltac lens m := lazymatch goal with |- counts_at _ (within _ _ _) _ =>
  apply ca_within with (mi := m); [intros; reflexivity | intros; reflexivity | intros; cbn; lia | ] end.

Ltac ca_in m := intros; repeat first
  [ assumption
  | apply ca_get_bind | apply ca_put_bind; [reflexivity|] | apply ca_ret_bind | apply ca_attempt_bind; intros
  | apply ca_sync_bind; [try (cstep; fail)|intros]
  | apply ca_ret | apply ca_attempt | apply ca_out_of_fuel
  | lens m
  | apply ca_await; [|intros]
  | apply ca_sync; try (cstep; fail)
  | match goal with |- counts_at _ (match ?x with _ => _ end) _ => destruct x eqn:? end
  | progress cbv zeta ].
Ltac ca := ca_in tt.

Section Defaults.
  Context {S T F E : Type} (m : S -> nat).

  Lemma ct_bulk_produce : forall (expose : fut S (res (list T + F) E)) consider buf,
    counts m expose -> (forall n, counts m (consider n)) -> counts m (a_bulk_produce expose consider buf).
  Proof.
    intros expose consider buf H1 H2. unfold a_bulk_produce. apply counts_all. ca; apply counts_one; auto.
  Qed.
  Lemma ct_bulk_consume : forall (expose : fut S (res nat E)) (write : list T -> S -> S) slots buf,
    (forall ys s, m (write ys s) = m s) -> counts m expose -> (forall n, counts m (slots n)) -> counts m (a_bulk_consume expose write slots buf).
  Proof.
    intros expose write slots buf H0 H1 H2. unfold a_bulk_consume. apply counts_all. ca; try (apply counts_one; auto).
    cstep. apply H0.
  Qed.

  Lemma counts_bulk_producer_of : forall produce slurp expose consider,
    counts m produce -> counts m slurp -> counts m expose -> (forall n, counts m (consider n)) ->
    bulk_producer_counts m (@a_bulk_producer_of S T F E produce slurp expose consider).
  Proof. intros produce slurp expose consider H1 H2 H3 H4. split; [split; assumption|]. split; [assumption|]. split; [assumption|]. intros buf. now apply ct_bulk_produce. Qed.
  Lemma counts_bulk_consumer_of : forall consume close flush expose (write : list T -> S -> S) slots,
    (forall x, counts m (consume x)) -> (forall f, counts m (close f)) -> counts m flush -> counts m expose ->
    (forall ys s, m (write ys s) = m s) -> (forall n, counts m (slots n)) ->
    bulk_consumer_counts m (@a_bulk_consumer_of S T F E consume close flush expose write slots).
  Proof.
    intros consume close flush expose write slots H1 H2 H3 H4 H5 H6. split; [split; [split|]; assumption|]. split; [assumption|]. split; [assumption|].
    split; [assumption|]. intros buf. now apply ct_bulk_consume.
  Qed.

  Lemma ct_consume_full_slice : forall (C : a_consumer S T F E), consumer_counts m C -> forall buf i, counts m (a_consume_full_slice_from C i buf).
  Proof.
    intros C [H1 H2]. induction buf as [|x buf IH]; intros i; apply counts_all; cbn [a_consume_full_slice_from]; ca; apply counts_one; auto.
  Qed.
  Lemma ct_bulk_consume_full_slice : forall (C : a_bulk_consumer S T F E), bulk_consumer_counts m C ->
    forall fuel i buf, counts m (a_bulk_consume_full_slice_loop fuel C i buf).
  Proof.
    intros C (_ & _ & _ & _ & H). induction fuel as [|fuel IH]; intros i buf; apply counts_all; cbn [a_bulk_consume_full_slice_loop]; ca; apply counts_one; auto.
  Qed.
  Lemma ct_produce_item : forall (P : a_producer S T F E), producer_counts m P -> counts m (a_produce_item P).
  Proof. intros P H. apply counts_all. unfold a_produce_item. ca; apply counts_one; auto. Qed.
  Lemma ct_overwrite_full_slice : forall (P : a_producer S T F E), producer_counts m P ->
    forall todo i buf, counts m (a_overwrite_full_slice_from P todo i buf).
  Proof.
    intros P H. induction todo as [|todo IH]; intros i buf; apply counts_all; cbn [a_overwrite_full_slice_from]; ca; apply counts_one; auto.
  Qed.
  Lemma ct_bulk_overwrite_full_slice : forall (P : a_bulk_producer S T F E), bulk_producer_counts m P ->
    forall fuel i buf, counts m (a_bulk_overwrite_full_slice_loop fuel P i buf).
  Proof.
    intros P (_ & _ & _ & H). induction fuel as [|fuel IH]; intros i buf; apply counts_all; cbn [a_bulk_overwrite_full_slice_loop]; ca; apply counts_one; auto.
  Qed.
End Defaults.

Section Pipes.
  Context {SP SC T F PE CE : Type} (mp : SP -> nat) (mc : SC -> nat).
  Let m (s : SP * SC) := mp (fst s) + mc (snd s).

  Lemma ca_on_fst : forall X (f : fut SP X) s, counts mp f -> counts_at m (on_fst f) s.
  Proof. intros X f s H. apply ca_within with (mi := mp); try assumption; intros; try reflexivity. unfold m. cbn. lia. Qed.
  Lemma ca_on_snd : forall X (f : fut SC X) s, counts mc f -> counts_at m (on_snd f) s.
  Proof. intros X f s H. apply ca_within with (mi := mc); try assumption; intros; try reflexivity. unfold m. cbn. lia. Qed.

  Ltac cp := intros; repeat first
    [ apply ca_attempt_bind; intros | apply ca_ret | apply ca_out_of_fuel | apply ca_await; [first [apply ca_on_fst|apply ca_on_snd]|intros]
    | match goal with |- counts_at _ (match ?x with _ => _ end) _ => destruct x eqn:? end
    | progress cbv zeta ].

  Lemma ct_pipe : forall (P : a_producer SP T F PE) (C : a_consumer SC T F CE), producer_counts mp P -> consumer_counts mc C ->
    forall fuel, counts m (a_pipe fuel P C).
  Proof. intros P C HP [H1 H2]. induction fuel as [|fuel IH]; apply counts_all; cbn [a_pipe]; cp; auto. apply counts_one, IH. Qed.
  Lemma ct_pipe_at_most : forall (P : a_producer SP T F PE) (C : a_consumer SC T F CE), producer_counts mp P -> consumer_counts mc C ->
    forall todo piped, counts m (a_pipe_at_most_loop todo P C piped).
  Proof. intros P C HP [H1 H2]. induction todo as [|todo IH]; intros piped; apply counts_all; cbn [a_pipe_at_most_loop]; cp; auto. apply counts_one, IH. Qed.
  Lemma ct_bulk_pipe : forall (P : a_bulk_producer SP T F PE) (C : a_bulk_consumer SC T F CE), bulk_producer_counts mp P -> bulk_consumer_counts mc C ->
    forall fuel, counts m (a_bulk_pipe fuel P C).
  Proof.
    intros P C (_ & H1 & H2 & _) ([[_ H3] _] & _ & _ & _ & H4). induction fuel as [|fuel IH]; apply counts_all; cbn [a_bulk_pipe]; cp; auto.
    apply counts_one, IH.
  Qed.
  Lemma ct_bulk_pipe_at_most : forall (P : a_bulk_producer SP T F PE) (C : a_bulk_consumer SC T F CE),
    bulk_producer_counts mp P -> bulk_consumer_counts mc C -> forall count fuel piped, counts m (a_bulk_pipe_at_most_loop fuel P C count piped).
  Proof.
    intros P C (_ & H1 & H2 & _) ([[_ H3] _] & _ & _ & _ & H4) count. induction fuel as [|fuel IH]; intros piped; apply counts_all;
      cbn [a_bulk_pipe_at_most_loop]; cp; auto. apply counts_one, IH.
  Qed.
End Pipes.

Section Adaptors.
  Context {S T F E : Type} (m : S -> nat).
  Ltac go := intros; apply counts_all; ca_in m; auto.

  Lemma counts_limit_producer : forall P : a_bulk_producer S T F E, bulk_producer_counts m P -> bulk_producer_counts (fun s => m (lim_inner s)) (a_limit_producer P).
  Proof.
    intros P ([H1 H2] & H3 & H4 & H5). apply counts_bulk_producer_of;
      unfold a_limit_produce, a_limit_slurp, a_limit_expose, a_limit_consider, a_lim; go.
  Qed.
  Lemma counts_limit_consumer : forall C : a_bulk_consumer S T F E, bulk_consumer_counts m C -> bulk_consumer_counts (fun s => m (lim_inner s)) (a_limit_consumer C).
  Proof.
    intros C ([[H1 H2] H3] & H4 & H0 & H5 & H6). apply counts_bulk_consumer_of; try (intros; apply H0);
      unfold a_limit_consume, a_limit_close, a_limit_flush, a_limit_expose_slots, a_limit_consume_slots, a_lim; go.
  Qed.
  Lemma counts_map_item_producer : forall U W (P : a_buffered_producer S T F E) (f : W -> T -> W * U),
    buffered_producer_counts m P -> buffered_producer_counts (fun s => m (mi_inner s)) (a_map_item_producer P f).
  Proof. intros U W P f [H1 H2]. split; unfold producer_counts; cbn -[await within]; unfold a_map_item_produce, a_mi; go. Qed.
  Lemma counts_map_item_consumer : forall U W (C : a_buffered_consumer S T F E) (f : W -> U -> W * T),
    buffered_consumer_counts m C -> buffered_consumer_counts (fun s => m (mi_inner s)) (a_map_item_consumer C f).
  Proof. intros U W C f [[H1 H2] H3]. split; [split|]; cbn -[await within]; unfold a_map_item_consume, a_mi; go. Qed.
  Lemma counts_map_final_producer : forall B (P : a_bulk_producer S T F E), bulk_producer_counts m P ->
    bulk_producer_counts (fun s => m (wf_inner s)) (a_map_final_producer (B := B) P).
  Proof.
    intros B P ([H1 H2] & H3 & H4 & H5). apply counts_bulk_producer_of; unfold a_map_final_call, a_take_fun, a_wf; go.
  Qed.
  Lemma counts_map_final_consumer : forall B (C : a_bulk_consumer S T F E), bulk_consumer_counts m C ->
    bulk_consumer_counts (fun s => m (wf_inner s)) (a_map_final_consumer (B := B) C).
  Proof.
    intros B C ([[H1 H2] H3] & H4 & H0 & H5 & H6). apply counts_bulk_consumer_of; try (intros; apply H0);
      unfold a_map_final_close, a_take_fun, a_wf; go.
  Qed.
  Lemma counts_map_error_producer : forall B (P : a_bulk_producer S T F E), bulk_producer_counts m P ->
    bulk_producer_counts (fun s => m (wf_inner s)) (a_map_error_producer (B := B) P).
  Proof.
    intros B P ([H1 H2] & H3 & H4 & H5). apply counts_bulk_producer_of; unfold a_map_error_call, a_take_fun, a_wf; go.
  Qed.
  Lemma counts_map_error_consumer : forall B (C : a_bulk_consumer S T F E), bulk_consumer_counts m C ->
    bulk_consumer_counts (fun s => m (wf_inner s)) (a_map_error_consumer (B := B) C).
  Proof.
    intros B C ([[H1 H2] H3] & H4 & H0 & H5 & H6). apply counts_bulk_consumer_of; try (intros; apply H0);
      unfold a_map_error_call, a_take_fun, a_wf; go.
  Qed.
  Lemma counts_invariant_producer : forall P : a_bulk_producer S T F E, bulk_producer_counts m P ->
    bulk_producer_counts (fun s => m (inv_inner s)) (a_invariant_producer P).
  Proof.
    intros P ([H1 H2] & H3 & H4 & H5). apply counts_bulk_producer_of;
      unfold a_invariant_produce, a_invariant_unit, a_invariant_expose, a_invariant_consider, a_check_inactive, a_deactivate, a_count_exposed, a_inv; go.
  Qed.
  Lemma counts_invariant_consumer : forall C : a_bulk_consumer S T F E, bulk_consumer_counts m C ->
    bulk_consumer_counts (fun s => m (inv_inner s)) (a_invariant_consumer C).
  Proof.
    intros C ([[H1 H2] H3] & H4 & H0 & H5 & H6). apply counts_bulk_consumer_of; try (intros; apply H0);
      unfold a_invariant_unit, a_invariant_close, a_invariant_expose_slots, a_invariant_consume_slots, a_check_inactive, a_deactivate, a_count_exposed, a_inv; go.
  Qed.
End Adaptors.

Section Scramblers.
  Context {S T F E : Type} (m : S -> nat) (dbg : bool).
  Ltac go := intros; apply counts_all; ca_in m; auto.

  Lemma ct_pscr_perform : forall P : a_bulk_producer S T F E, bulk_producer_counts m P ->
    counts (fun s : pscr S T F E => m (ps_inner s)) (a_pscr_perform_operation dbg P).
  Proof.
    intros P ([H1 H2] & H3 & H4 & H5). unfold a_pscr_perform_operation, a_ps_advance, pscr_advance, a_ps. go.
  Qed.
  Lemma ct_pscr_fill_queue : forall P : a_bulk_producer S T F E, bulk_producer_counts m P ->
    forall fuel, counts (fun s : pscr S T F E => m (ps_inner s)) (a_pscr_fill_queue dbg fuel P).
  Proof.
    intros P H fuel. pose proof (ct_pscr_perform P H) as H0.
    assert (counts (fun s : pscr S T F E => m (ps_inner s)) (a_pscr_fill_loop dbg fuel P)) as H1.
    { induction fuel as [|fuel IH]; cbn [a_pscr_fill_loop]; unfold a_ps_set_last; apply counts_all; intros s; [apply ca_out_of_fuel|].
      apply ca_get_bind. destruct (ps_last s); [apply ca_ret|]. destruct (_ <? _); [|apply ca_ret].
      apply ca_await; [now apply counts_one|]. intros s' [[f|]|e] _; [| |].
      - apply ca_sync_bind; [cstep|]. intros. now apply counts_one.
      - now apply counts_one.
      - apply ca_sync_bind; [cstep|]. intros. now apply counts_one. }
    unfold a_pscr_fill_queue, a_ps_set_last. apply counts_all. intros s. apply ca_await; [now apply counts_one|]. intros. ca_in m.
  Qed.
  Lemma counts_pscr : forall fuel (P : a_bulk_producer S T F E), bulk_producer_counts m P ->
    bulk_producer_counts (fun s => m (ps_inner s)) (a_pscr_producer dbg fuel P).
  Proof.
    intros fuel P H. pose proof (ct_pscr_fill_queue P H fuel) as H0. destruct H as ([H1 H2] & H3 & H4 & H5).
    apply counts_bulk_producer_of; unfold a_pscr_produce, a_pscr_slurp, a_pscr_expose, a_ps_set_last, a_ps, pscr_consider; intros; apply counts_all; intros;
      try (apply ca_await; [now apply counts_one|]); ca_in m; auto.
  Qed.

  Variable d : T.
  Lemma ct_cscr_perform : forall C : a_bulk_consumer S T F E, bulk_consumer_counts m C ->
    counts (fun s : cscr S T => m (cs_inner s)) (a_cscr_perform_operation dbg d C).
  Proof.
    intros C ([[H1 H2] H3] & H4 & H0 & H5 & H6). unfold a_cscr_perform_operation, cscr_advance, a_cs. go. cstep. cbn. apply H0.
  Qed.
  Lemma ct_cscr_drain : forall C : a_bulk_consumer S T F E, bulk_consumer_counts m C ->
    forall fuel, counts (fun s : cscr S T => m (cs_inner s)) (a_cscr_drain dbg d fuel C).
  Proof.
    intros C H. pose proof (ct_cscr_perform C H) as H0. induction fuel as [|fuel IH]; cbn [a_cscr_drain]; apply counts_all; intros s; [apply ca_out_of_fuel|].
    apply ca_get_bind. destruct (_ <? _); [|apply ca_ret]. apply ca_await; [now apply counts_one|]. intros s' [[]|e] _; [now apply counts_one|apply ca_ret].
  Qed.
  Lemma counts_cscr : forall fuel (C : a_bulk_consumer S T F E), bulk_consumer_counts m C ->
    bulk_consumer_counts (fun s => m (cs_inner s)) (a_cscr_consumer dbg d fuel C).
  Proof.
    intros fuel C H. pose proof (ct_cscr_drain C H fuel) as HD. destruct H as ([[H1 H2] H3] & H4 & H0 & H5 & H6).
    assert (HD' : forall s, counts_at (fun s : cscr S T => m (cs_inner s)) (a_cscr_drain dbg d fuel C) s) by (intros; now apply counts_one).
    apply counts_bulk_consumer_of; try reflexivity; unfold a_cscr_consume, a_cscr_close, a_cscr_flush, a_cscr_expose, a_cs_enqueue, a_cs_expose_slots, a_cs,
      cscr_consume_slots; intros; apply counts_all; ca_in m; auto.
  Qed.
End Scramblers.

Section Codecs.
  Context {S F E V O RT : Type} (m : S -> nat).
  Lemma counts_encoder : forall (e : a_encode_fn V) (C : a_bulk_consumer S byte F E), encode_counts e ->
    bulk_consumer_counts m C -> buffered_consumer_counts m (a_encoder e C).
  Proof. intros e C He H. pose proof H as ([[H1 H2] H3] & H4 & H5 & H6). split; [split|]; cbn; auto. Qed.
  Lemma ct_decoder : forall (e : a_decode_fn V O) (P : a_bulk_producer S byte F E), decode_counts e ->
    bulk_producer_counts m P -> counts m (a_decoder_produce e P).
  Proof.
    intros e P He H. pose proof H as ([H1 H2] & H3 & H4 & H5). unfold a_decoder_produce. apply counts_all. intros s.
    apply ca_await; [now apply counts_one|]. intros s' [[x|f]|er] _; try apply ca_ret.
    apply ca_await; [apply counts_one; now apply He|]. intros s2 [y|er] _; apply ca_ret.
  Qed.
  Lemma ct_decoder_slurp : forall (P : a_bulk_producer S byte F E), bulk_producer_counts m P -> counts m (a_decoder_slurp (O := O) P).
  Proof.
    intros P ([H1 H2] & H3 & H4 & H5). unfold a_decoder_slurp. apply counts_all. intros s. apply ca_await; [now apply counts_one|]. intros. apply ca_ret.
  Qed.
  Lemma counts_decoder : forall (e : a_decode_fn V O) (P : a_bulk_producer S byte F E), decode_counts e ->
    bulk_producer_counts m P -> buffered_producer_counts m (a_decoder e P).
  Proof. intros e P He H. split; [now apply ct_decoder|now apply ct_decoder_slurp]. Qed.
  Lemma counts_relative_encoder : forall (e : RT -> a_encode_fn V) (C : a_bulk_consumer S byte F E), (forall r, encode_counts (e r)) ->
    bulk_consumer_counts m C -> buffered_consumer_counts (fun s => m (rel_inner s)) (a_relative_encoder e C).
  Proof.
    intros e C He H. pose proof H as ([[H1 H2] H3] & H4 & H5 & H6). split; [split|]; cbn -[await within]; unfold a_rel; intros; apply counts_all; intros.
    - apply ca_get_bind. lens m. now apply He.
    - lens m. apply H2.
    - lens m. apply H3.
  Qed.
  Lemma counts_relative_decoder : forall (e : RT -> a_decode_fn V O) (P : a_bulk_producer S byte F E), (forall r, decode_counts (e r)) ->
    bulk_producer_counts m P -> buffered_producer_counts (fun s => m (rel_inner s)) (a_relative_decoder e P).
  Proof.
    intros e P He H. split; [unfold producer_counts|]; cbn -[await within]; unfold a_rel; apply counts_all; intros.
    - apply ca_get_bind. lens m. now apply ct_decoder.
    - lens m. now apply ct_decoder_slurp.
  Qed.
End Codecs.

Lemma endian_encode_counts : forall w, encode_counts (a_endian_encode w).
Proof.
  intros w S F E C m H v. unfold a_endian_encode, a_bulk_consume_full_slice. apply counts_all. intros s.
  apply ca_await; [apply counts_one; now apply ct_bulk_consume_full_slice|]. intros. apply ca_ret.
Qed.
Lemma endian_decode_counts : forall w, decode_counts (a_endian_decode w).
Proof.
  intros w S F E P m H. unfold a_endian_decode, a_bulk_overwrite_full_slice. apply counts_all. intros s.
  apply ca_await; [apply counts_one; now apply ct_bulk_overwrite_full_slice|]. intros s' [buf [[]|e]] _; apply ca_ret.
Qed.

(** *** The test objects *)

(** How often one await of the yielder returns [Pending]. *)
Lemma pendings_yield_polls : forall pattern k n i, (forall j, j < k -> nth_error pattern ((i + j) mod length pattern) = Some true) ->
  nth_error pattern ((i + k) mod length pattern) = Some false -> i < length pattern -> k < n ->
  pendings (a_yield_polls n) (mk_yielder pattern i) = k.
Proof.
  intros pattern. induction k as [|k IH]; intros n i H1 H2 H3 H4; (destruct n as [|n]; [lia|]); cbn [a_yield_polls pendings poll];
    unfold yielder_poll, index; cbn [y_index y_pattern].
  - rewrite Nat.add_0_r, Nat.mod_small in H2 by assumption. rewrite H2. cbn [bind].
    unfold cmod. destruct (length pattern); [lia|]. reflexivity.
  - pose proof (H1 0 ltac:(lia)) as H5. rewrite Nat.add_0_r, Nat.mod_small in H5 by assumption. rewrite H5. cbn [bind].
    unfold cmod. destruct (length pattern) as [|l] eqn:El; [lia|]. cbn [Nat.eqb bind negb]. f_equal. apply IH; try lia; rewrite ?El.
    + intros j Hj. rewrite Nat.add_mod_idemp_l by lia. rewrite <- (H1 (Datatypes.S j) ltac:(lia)). f_equal. f_equal. lia.
    + rewrite Nat.add_mod_idemp_l by lia. rewrite <- H2. f_equal. f_equal. lia.
    + apply Nat.mod_upper_bound. lia.
Qed.

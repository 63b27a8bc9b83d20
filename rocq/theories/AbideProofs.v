(** What holds between the calls of an object holds between the calls of what contains it. *)
From Coq Require Import Bool List Arith Lia.
From Coq.Init Require Import Byte.
From Verif Require Import Prelude QueueModel Traits Contracts BasicModel AdaptorModel AdaptorSpec ScramblerModel CodecModel EndianModel SliceModel IoModel.
From Verif Require Import AsyncModel AsyncSpec AsyncProofs AsyncAdaptorModel AsyncMergeModel AsyncMergeSpec AsyncIoModel SharedModel SharedSpec SharedProofs AsyncSharedModel AbideSpec.
Import ListNotations.

Section Clean.
  Lemma clean_poll : forall S X (free ok : S -> Prop) (f : fut S X) s, clean free ok f s <->
    match poll f s with Ret (s', Ready _) => free s' | Ret (s', Pending _ f') => ok s' /\ clean free ok f' s' | _ => True end.
  Proof. intros S X free ok [p] s. cbn. reflexivity. Qed.

  Lemma clean_await : forall S X Y (free ok : S -> Prop) (f : fut S X) (k : X -> fut S Y) s,
    clean free ok f s -> (forall x s', free s' -> clean free ok (k x) s') -> clean free ok (await f k) s.
  Proof.
    intros S X Y free ok. fix IH 1. intros [p] k s H Hk. cbn in *. destruct (p s) as [[s' [x|w f']]| |] eqn:E1; auto.
    - specialize (Hk x s' H). apply clean_poll in Hk. exact Hk.
    - destruct H as [H1 H2]. split; [exact H1|]. now apply IH.
  Qed.
  Lemma clean_await_get : forall S Y (free ok : S -> Prop) (k : S -> fut S Y) s, clean free ok (k s) s -> clean free ok (await get k) s.
  Proof. intros S Y free ok k s H. cbn. apply clean_poll in H. exact H. Qed.
  Lemma clean_await_put : forall S Y (free ok : S -> Prop) (k : unit -> fut S Y) s0 s, clean free ok (k tt) s0 -> clean free ok (await (put s0) k) s.
  Proof. intros S Y free ok k s0 s H. cbn. apply clean_poll in H. exact H. Qed.
  Lemma clean_await_attempt : forall S X Y (free ok : S -> Prop) (o : outcome X) (k : X -> fut S Y) s,
    (forall x, o = Ret x -> clean free ok (k x) s) -> clean free ok (await (attempt o) k) s.
  Proof. intros S X Y free ok [x| |] k s H; cbn; auto. specialize (H x eq_refl). apply clean_poll in H. exact H. Qed.
  Lemma clean_attempt : forall S X (free ok : S -> Prop) (o : outcome X) s, free s -> clean free ok (attempt o) s.
  Proof. intros S X free ok [x| |] s H; cbn; auto. Qed.
  Lemma clean_sync : forall S X (free ok : S -> Prop) (g : S -> outcome (S * X)) s,
    (forall s' x, g s = Ret (s', x) -> free s') -> clean free ok (sync g) s.
  Proof. intros S X free ok g s H. cbn. destruct (g s) as [[s' x]| |]; cbn; eauto. Qed.
  Lemma clean_ret : forall S X (free ok : S -> Prop) (x : X) s, free s -> clean free ok (ret x) s.
  Proof. intros. exact H. Qed.
  Lemma clean_out_of_fuel : forall S X (free ok : S -> Prop) s, clean free ok (@out_of_fuel S X) s.
  Proof. intros. exact Logic.I. Qed.
  Lemma clean_within : forall S I X (free ok : I -> Prop) (field : S -> I) (set : I -> S -> S) (f : fut I X) s,
    (forall i s, field (set i s) = i) -> clean free ok f (field s) -> clean (fun s => free (field s)) (fun s => ok (field s)) (within field set f) s.
  Proof.
    intros S I X free ok field set f s Hset. revert f s. fix IH 1. intros [p] s H. cbn in *.
    destruct (p (field s)) as [[i [x|w f']]| |] eqn:E1; auto.
    - now rewrite Hset.
    - destruct H as [H1 H2]. rewrite Hset. split; [exact H1|]. apply IH. now rewrite Hset.
  Qed.
  Lemma clean_weaken : forall S X (free ok free' ok' : S -> Prop) (f : fut S X) s, (forall s, free s -> free' s) -> (forall s, ok s -> ok' s) ->
    clean free ok f s -> clean free' ok' f s.
  Proof.
    intros S X free ok free' ok' f s H1 H2. revert f s. fix IH 1. intros [p] s H. cbn in *.
    destruct (p s) as [[s' [x|w f']]| |]; auto. destruct H as [H3 H4]. split; auto.
  Qed.
  Lemma clean_polls : forall S X (free ok : S -> Prop) n (f : fut S X) s s' r, ok s -> clean free ok f s -> polls n f s = Ret (s', r) ->
    match r with Ready _ => free s' | Pending _ _ => ok s' end.
  Proof.
    intros S X free ok. induction n as [|n IH]; intros f s s' r Hok H HP; cbn in HP.
    - injection HP as <- <-. exact Hok.
    - apply clean_poll in H. destruct (poll f s) as [[s1 [x|w f']]| |]; cbn in HP; try discriminate.
      + injection HP as <- <-. exact H.
      + destruct H as [H1 H2]. exact (IH _ _ _ _ H1 H2 HP).
  Qed.
End Clean.

Lemma abiding_keeps : forall S O A (free ok : S -> Prop) (call : O -> fut S A), (forall s, free s -> ok s) -> (forall o, keeps free ok (call o)) ->
  forall ops s s' dropped, free s -> abiding call ops s = Ret (s', dropped) -> ok s' /\ (dropped = false -> free s').
Proof.
  intros S O A free ok call Hfo HK. induction ops as [|[o n] ops IH]; intros s s' dropped Hs HA; cbn in HA.
  - injection HA as <- <-. auto.
  - destruct (polls n (call o) s) as [[s1 r]| |] eqn:EP; cbn in HA; try discriminate.
    pose proof (clean_polls _ _ _ _ _ _ _ _ _ (Hfo _ Hs) (HK o s Hs) EP) as H1. destruct r as [x|w f'].
    + eauto.
    + injection HA as <- <-. split; [exact H1|discriminate].
Qed.

Lemma never_misuses_intro : forall S O A (call : O -> fut S A) (inner : S -> standing),
  (forall o, keeps (fun s => inner s = AtRest) (fun s => inner s <> Misused) (call o)) -> never_misuses call inner.
Proof.
  intros S O A call inner H ops s s' dropped Hs HA. refine (abiding_keeps _ _ _ (fun s => inner s = AtRest) (fun s => inner s <> Misused) _ _ H _ _ _ _ Hs HA).
  intros s0 -> HF. discriminate HF.
Qed.

(** ** Structurally *)
Ltac kq := match goal with
  | |- context [match ?x with _ => _ end] => destruct x
  | |- context [let* _ := ?x in _] => destruct x
  end.
(* the state after code without await *)
Ltac ks := let s' := fresh "s'" in let x := fresh "x" in let H := fresh "H" in
  apply clean_sync; intros s' x H; cbn in H;
  repeat (match type of H with
          | context [match ?x with _ => _ end] => destruct x eqn:?
          | context [bind ?x _] => destruct x eqn:?
          end; cbn in H; try discriminate H);
  injection H as <- <-; cbn; auto.
Ltac kp := intros; cbv zeta; repeat first
  [ assumption
  | match goal with
    | |- clean _ _ (await get _) _ => apply clean_await_get
    | |- clean _ _ (await (put _) _) _ => apply clean_await_put
    | |- clean _ _ (await (attempt _) _) _ => apply clean_await_attempt; intros
    | |- clean _ _ (await _ _) _ => apply clean_await; [|intros]
    | |- clean _ _ (ret _) _ => apply clean_ret; assumption
    | |- clean _ _ out_of_fuel _ => apply clean_out_of_fuel
    | |- clean _ _ (attempt _) _ => apply clean_attempt; assumption
    end
  | match goal with H : keeps ?free ?ok ?f |- clean ?free ?ok ?f _ => apply H; assumption end
  | match goal with H : forall _, keeps ?free ?ok _ |- clean ?free ?ok _ _ => apply H; assumption end
  | match goal with |- clean _ _ (match ?x with _ => _ end) _ => destruct x eqn:? end
  | progress cbv zeta ].

Section Defaults.
  Context {S T F E : Type} (free ok : S -> Prop).

  Lemma keeps_bulk_produce : forall (expose : fut S (res (list T + F) E)) consider buf,
    keeps free ok expose -> (forall n, keeps free ok (consider n)) -> keeps free ok (a_bulk_produce expose consider buf).
  Proof. intros expose consider buf H1 H2 s Hs. unfold a_bulk_produce. kp. Qed.
  Lemma keeps_bulk_consume : forall (expose : fut S (res nat E)) (write : list T -> S -> S) slots buf,
    keeps free ok expose -> (forall ys s, free s -> free (write ys s)) -> (forall n, keeps free ok (slots n)) -> keeps free ok (a_bulk_consume expose write slots buf).
  Proof. intros expose write slots buf H1 H2 H3 s Hs. unfold a_bulk_consume. kp; ks. Qed.

  Lemma keeps_bulk_producer_of : forall produce slurp expose consider,
    keeps free ok produce -> keeps free ok slurp -> keeps free ok expose -> (forall n, keeps free ok (consider n)) ->
    keeps_bulk_producer free ok (@a_bulk_producer_of S T F E produce slurp expose consider).
  Proof. intros produce slurp expose consider H1 H2 H3 H4. split; [split; assumption|]. split; [assumption|]. split; [assumption|]. intros buf. now apply keeps_bulk_produce. Qed.
  Lemma keeps_bulk_consumer_of : forall consume close flush expose write slots,
    (forall x, keeps free ok (consume x)) -> (forall f, keeps free ok (close f)) -> keeps free ok flush -> keeps free ok expose ->
    (forall ys s, free s -> free (write ys s)) -> (forall n, keeps free ok (slots n)) ->
    keeps_bulk_consumer free ok (@a_bulk_consumer_of S T F E consume close flush expose write slots).
  Proof.
    intros consume close flush expose write slots H1 H2 H3 H4 H5 H6. split; [split; [split|]; assumption|]. split; [assumption|]. split; [assumption|].
    split; [assumption|]. intros buf. now apply keeps_bulk_consume.
  Qed.

  Lemma keeps_consume_full_slice : forall (C : a_consumer S T F E), keeps_consumer free ok C -> forall buf i, keeps free ok (a_consume_full_slice_from C i buf).
  Proof. intros C [H1 H2]. induction buf as [|x buf IH]; intros i s Hs; cbn [a_consume_full_slice_from]; kp; now apply IH. Qed.
  Lemma keeps_bulk_consume_full_slice : forall (C : a_bulk_consumer S T F E), keeps_bulk_consumer free ok C ->
    forall fuel i buf, keeps free ok (a_bulk_consume_full_slice_loop fuel C i buf).
  Proof. intros C (_ & _ & _ & _ & H). induction fuel as [|fuel IH]; intros i buf s Hs; cbn [a_bulk_consume_full_slice_loop]; kp; now apply IH. Qed.
  Lemma keeps_produce_item : forall (P : a_producer S T F E), keeps_producer free ok P -> keeps free ok (a_produce_item P).
  Proof. intros P H s Hs. unfold a_produce_item. unfold keeps_producer in H. kp. Qed.
  Lemma keeps_overwrite_full_slice : forall (P : a_producer S T F E), keeps_producer free ok P ->
    forall todo i buf, keeps free ok (a_overwrite_full_slice_from P todo i buf).
  Proof. intros P H. unfold keeps_producer in H. induction todo as [|todo IH]; intros i buf s Hs; cbn [a_overwrite_full_slice_from]; kp; now apply IH. Qed.
  Lemma keeps_bulk_overwrite_full_slice : forall (P : a_bulk_producer S T F E), keeps_bulk_producer free ok P ->
    forall fuel i buf, keeps free ok (a_bulk_overwrite_full_slice_loop fuel P i buf).
  Proof. intros P (_ & _ & _ & H). induction fuel as [|fuel IH]; intros i buf s Hs; cbn [a_bulk_overwrite_full_slice_loop]; kp; now apply IH. Qed.

  Lemma keeps_ap_future : forall (P : a_bulk_producer S T F E), keeps_bulk_producer free ok P -> forall o, keeps free ok (ap_future P o).
  Proof. intros P ([H1 H2] & H3 & H4 & H5) [| | |n|buf] s Hs; unfold keeps_producer in H1; cbn [ap_future]; kp. Qed.
  Lemma keeps_ac_future : forall (C : a_bulk_consumer S T F E), keeps_bulk_consumer free ok C -> forall o, keeps free ok (ac_future C o).
  Proof. intros C ([[H1 H2] H3] & H4 & H5 & H6 & H7) [x|f| | |ys|n|buf] s Hs; cbn [ac_future]; kp; ks. Qed.
  Lemma keeps_abp_future : forall (P : a_buffered_producer S T F E), keeps_buffered_producer free ok P -> forall o, keeps free ok (abp_future P o).
  Proof. intros P [H1 H2] [|] s Hs; unfold keeps_producer in H1; cbn [abp_future]; kp. Qed.
  Lemma keeps_abc_future : forall (C : a_buffered_consumer S T F E), keeps_buffered_consumer free ok C -> forall o, keeps free ok (abc_future C o).
  Proof. intros C [[H1 H2] H3] [x|f|] s Hs; cbn [abc_future]; kp. Qed.
End Defaults.

Section Pipes.
  Context {SP SC T F PE CE : Type} (freeP okP : SP -> Prop) (freeC okC : SC -> Prop).
  Variables (HP0 : forall s, freeP s -> okP s) (HC0 : forall s, freeC s -> okC s).
  Notation free := (fun st => freeP (fst st) /\ freeC (snd st)).
  Notation ok := (fun st => okP (fst st) /\ okC (snd st)).

  Lemma clean_on_fst : forall X (f : fut SP X) (st : SP * SC), keeps freeP okP f -> free st -> clean free ok (on_fst f) st.
  Proof.
    intros X f st Hf [H1 H2]. specialize (Hf _ H1). clear H1. unfold on_fst. revert f st Hf H2. fix IH 1. intros [p] st Hf H2. cbn in *.
    destruct (p (fst st)) as [[s' [x|w f']]| |]; auto; cbn. destruct Hf as [H3 H4]. split; [auto|]. now apply IH.
  Qed.
  Lemma clean_on_snd : forall X (f : fut SC X) (st : SP * SC), keeps freeC okC f -> free st -> clean free ok (on_snd f) st.
  Proof.
    intros X f st Hf [H1 H2]. specialize (Hf _ H2). clear H2. unfold on_snd. revert f st Hf H1. fix IH 1. intros [p] st Hf H1. cbn in *.
    destruct (p (snd st)) as [[s' [x|w f']]| |]; auto; cbn. destruct Hf as [H3 H4]. split; [auto|]. now apply IH.
  Qed.

  Lemma keeps_pipe : forall (P : a_producer SP T F PE) (C : a_consumer SC T F CE), keeps_producer freeP okP P -> keeps_consumer freeC okC C ->
    forall fuel, keeps free ok (a_pipe fuel P C).
  Proof.
    intros P C HP [H1 H2]. unfold keeps_producer in HP. induction fuel as [|fuel IH]; intros s Hs; cbn [a_pipe]; kp;
      first [now apply IH|apply clean_on_fst; auto|apply clean_on_snd; auto].
  Qed.
  Lemma keeps_pipe_at_most : forall (P : a_producer SP T F PE) (C : a_consumer SC T F CE), keeps_producer freeP okP P -> keeps_consumer freeC okC C ->
    forall todo piped, keeps free ok (a_pipe_at_most_loop todo P C piped).
  Proof.
    intros P C HP [H1 H2]. unfold keeps_producer in HP. induction todo as [|todo IH]; intros piped s Hs; cbn [a_pipe_at_most_loop]; kp;
      first [now apply IH|apply clean_on_fst; auto|apply clean_on_snd; auto].
  Qed.
  Lemma keeps_bulk_pipe : forall (P : a_bulk_producer SP T F PE) (C : a_bulk_consumer SC T F CE), keeps_bulk_producer freeP okP P -> keeps_bulk_consumer freeC okC C ->
    forall fuel, keeps free ok (a_bulk_pipe fuel P C).
  Proof.
    intros P C (_ & H1 & H2 & _) ([[_ H3] _] & _ & _ & _ & H4). induction fuel as [|fuel IH]; intros s Hs; cbn [a_bulk_pipe]; kp;
      first [now apply IH|apply clean_on_fst; auto|apply clean_on_snd; auto].
  Qed.
  Lemma keeps_bulk_pipe_at_most : forall (P : a_bulk_producer SP T F PE) (C : a_bulk_consumer SC T F CE),
    keeps_bulk_producer freeP okP P -> keeps_bulk_consumer freeC okC C -> forall count fuel piped, keeps free ok (a_bulk_pipe_at_most_loop fuel P C count piped).
  Proof.
    intros P C (_ & H1 & H2 & _) ([[_ H3] _] & _ & _ & _ & H4) count. induction fuel as [|fuel IH]; intros piped s Hs; cbn [a_bulk_pipe_at_most_loop]; kp;
      first [now apply IH|apply clean_on_fst; auto|apply clean_on_snd; auto].
  Qed.
End Pipes.

(* a future of the field that contains the object *)
Ltac kw := match goal with
  | |- clean _ _ (within ?field ?set ?f) ?s =>
      refine (clean_within _ _ _ _ _ field set f s (fun _ _ => eq_refl) _);
      try (match goal with H : keeps _ _ ?f |- _ => apply H; assumption | H : forall _, keeps _ _ _ |- _ => apply H; assumption end)
  end.

Section Adaptors.
  Context {S T F E : Type} (free ok : S -> Prop).
  Lemma keeps_limit_producer : forall P : a_bulk_producer S T F E, keeps_bulk_producer free ok P ->
    keeps_bulk_producer (fun s => free (lim_inner s)) (fun s => ok (lim_inner s)) (a_limit_producer P).
  Proof.
    intros P ([H1 H2] & H3 & H4 & H5). unfold keeps_producer in H1. apply keeps_bulk_producer_of; intros; intros s Hs;
      unfold a_limit_produce, a_limit_slurp, a_limit_expose, a_limit_consider, a_lim; kp; first [kw|ks].
  Qed.
  Lemma keeps_limit_consumer : forall C : a_bulk_consumer S T F E, keeps_bulk_consumer free ok C ->
    keeps_bulk_consumer (fun s => free (lim_inner s)) (fun s => ok (lim_inner s)) (a_limit_consumer C).
  Proof.
    intros C ([[H1 H2] H3] & H4 & H5 & H6 & H7). apply keeps_bulk_consumer_of; try (intros; cbn; now apply H5); intros; intros s Hs;
      unfold a_limit_consume, a_limit_close, a_limit_flush, a_limit_expose_slots, a_limit_consume_slots, a_lim; kp; first [kw|ks].
  Qed.
  Lemma keeps_map_item_producer : forall U W (P : a_buffered_producer S T F E) (f : W -> T -> W * U),
    keeps_buffered_producer free ok P -> keeps_buffered_producer (fun s => free (mi_inner s)) (fun s => ok (mi_inner s)) (a_map_item_producer P f).
  Proof. intros U W P f [H1 H2]. unfold keeps_producer in H1. split; intros s Hs; cbn -[await within clean]; unfold a_map_item_produce, a_mi; kp; kw. Qed.
  Lemma keeps_map_item_consumer : forall U W (C : a_buffered_consumer S T F E) (f : W -> U -> W * T),
    keeps_buffered_consumer free ok C -> keeps_buffered_consumer (fun s => free (mi_inner s)) (fun s => ok (mi_inner s)) (a_map_item_consumer C f).
  Proof. intros U W C f [[H1 H2] H3]. split; [split|]; intros; intros s Hs; cbn -[await within clean]; unfold a_map_item_consume, a_mi; kp; kw. Qed.
  Lemma keeps_map_final_producer : forall B (P : a_bulk_producer S T F E), keeps_bulk_producer free ok P ->
    keeps_bulk_producer (fun s => free (wf_inner s)) (fun s => ok (wf_inner s)) (a_map_final_producer (B := B) P).
  Proof.
    intros B P ([H1 H2] & H3 & H4 & H5). unfold keeps_producer in H1. apply keeps_bulk_producer_of; intros; intros s Hs;
      unfold a_map_final_call, a_take_fun, a_wf; kp; first [kw|ks].
  Qed.
  Lemma keeps_map_final_consumer : forall B (C : a_bulk_consumer S T F E), keeps_bulk_consumer free ok C ->
    keeps_bulk_consumer (fun s => free (wf_inner s)) (fun s => ok (wf_inner s)) (a_map_final_consumer (B := B) C).
  Proof.
    intros B C ([[H1 H2] H3] & H4 & H5 & H6 & H7). apply keeps_bulk_consumer_of; try (intros; cbn; now apply H5); intros; intros s Hs;
      unfold a_map_final_close, a_take_fun, a_wf; kp; first [kw|ks].
  Qed.
  Lemma keeps_map_error_producer : forall B (P : a_bulk_producer S T F E), keeps_bulk_producer free ok P ->
    keeps_bulk_producer (fun s => free (wf_inner s)) (fun s => ok (wf_inner s)) (a_map_error_producer (B := B) P).
  Proof.
    intros B P ([H1 H2] & H3 & H4 & H5). unfold keeps_producer in H1. apply keeps_bulk_producer_of; intros; intros s Hs;
      unfold a_map_error_call, a_take_fun, a_wf; kp; first [kw|ks].
  Qed.
  Lemma keeps_map_error_consumer : forall B (C : a_bulk_consumer S T F E), keeps_bulk_consumer free ok C ->
    keeps_bulk_consumer (fun s => free (wf_inner s)) (fun s => ok (wf_inner s)) (a_map_error_consumer (B := B) C).
  Proof.
    intros B C ([[H1 H2] H3] & H4 & H5 & H6 & H7). apply keeps_bulk_consumer_of; try (intros; cbn; now apply H5); intros; intros s Hs;
      unfold a_map_error_call, a_take_fun, a_wf; kp; first [kw|ks].
  Qed.
  Lemma keeps_invariant_producer : forall P : a_bulk_producer S T F E, keeps_bulk_producer free ok P ->
    keeps_bulk_producer (fun s => free (inv_inner s)) (fun s => ok (inv_inner s)) (a_invariant_producer P).
  Proof.
    intros P ([H1 H2] & H3 & H4 & H5). unfold keeps_producer in H1. apply keeps_bulk_producer_of; intros; intros s Hs;
      unfold a_invariant_produce, a_invariant_unit, a_invariant_expose, a_invariant_consider, a_check_inactive, a_deactivate, a_count_exposed, a_inv; kp; first [kw|ks].
  Qed.
  Lemma keeps_invariant_consumer : forall C : a_bulk_consumer S T F E, keeps_bulk_consumer free ok C ->
    keeps_bulk_consumer (fun s => free (inv_inner s)) (fun s => ok (inv_inner s)) (a_invariant_consumer C).
  Proof.
    intros C ([[H1 H2] H3] & H4 & H5 & H6 & H7). apply keeps_bulk_consumer_of; try (intros; cbn; now apply H5); intros; intros s Hs;
      unfold a_invariant_unit, a_invariant_close, a_invariant_expose_slots, a_invariant_consume_slots, a_check_inactive, a_deactivate, a_count_exposed, a_inv; kp;
      first [kw|ks].
  Qed.
End Adaptors.

Section Scramblers.
  Context {S T F E : Type} (dbg : bool) (free ok : S -> Prop).
  Notation pfree := (fun s : pscr S T F E => free (ps_inner s)).
  Notation pok := (fun s : pscr S T F E => ok (ps_inner s)).
  Lemma pscr_advance_inner : forall (s : pscr S T F E) s', pscr_advance s = Ret s' -> ps_inner s' = ps_inner s.
  Proof. intros s s' H. unfold pscr_advance in H. destruct (cmod _ _); try discriminate. now injection H as <-. Qed.
  Lemma cscr_advance_inner : forall (s : cscr S T) s', cscr_advance s = Ret s' -> cs_inner s' = cs_inner s.
  Proof. intros s s' H. unfold cscr_advance in H. destruct (cmod _ _); try discriminate. now injection H as <-. Qed.
  Lemma keeps_ps_advance : keeps pfree pok a_ps_advance.
  Proof.
    intros s Hs. apply clean_sync. intros s' x H. destruct (pscr_advance s) as [s1| |] eqn:E1; try discriminate. injection H as <- <-.
    cbn. now rewrite (pscr_advance_inner _ _ E1).
  Qed.
  Lemma keeps_pscr_perform : forall P : a_bulk_producer S T F E, keeps_bulk_producer free ok P -> keeps pfree pok (a_pscr_perform_operation dbg P).
  Proof.
    intros P ([H1 H2] & H3 & H4 & H5) s Hs. unfold keeps_producer in H1. pose proof keeps_ps_advance as HA.
    unfold a_pscr_perform_operation, a_ps. kp; first [kw|ks].
  Qed.
  Lemma keeps_pscr_fill_loop : forall P : a_bulk_producer S T F E, keeps_bulk_producer free ok P -> forall fuel, keeps pfree pok (a_pscr_fill_loop dbg fuel P).
  Proof.
    intros P H. pose proof (keeps_pscr_perform P H) as H0. induction fuel as [|fuel IH]; intros s Hs; cbn [a_pscr_fill_loop]; unfold a_ps_set_last; kp; ks.
  Qed.
  Lemma keeps_pscr_fill_queue : forall P : a_bulk_producer S T F E, keeps_bulk_producer free ok P -> forall fuel, keeps pfree pok (a_pscr_fill_queue dbg fuel P).
  Proof.
    intros P H fuel s Hs. pose proof (keeps_pscr_fill_loop P H fuel) as H0. unfold a_pscr_fill_queue, a_ps_set_last. kp; ks.
  Qed.
  Lemma keeps_pscr : forall fuel (P : a_bulk_producer S T F E), keeps_bulk_producer free ok P -> keeps_bulk_producer pfree pok (a_pscr_producer dbg fuel P).
  Proof.
    intros fuel P H. pose proof (keeps_pscr_fill_queue P H fuel) as H0. destruct H as ([H1 H2] & H3 & H4 & H5). unfold keeps_producer in H1.
    apply keeps_bulk_producer_of; intros; intros s Hs; unfold a_pscr_produce, a_pscr_slurp, a_pscr_expose, a_ps_set_last, a_ps, pscr_consider; kp; first [kw|ks].
  Qed.
  Variable d : T.
  Notation cfree := (fun s : cscr S T => free (cs_inner s)).
  Notation cok := (fun s : cscr S T => ok (cs_inner s)).
  Lemma keeps_cs_advance : keeps cfree cok (sync (fun s => let* s := cscr_advance s in Ret (s, tt))).
  Proof.
    intros s Hs. apply clean_sync. intros s' x H. destruct (cscr_advance s) as [s1| |] eqn:E1; try discriminate. injection H as <- <-.
    cbn. now rewrite (cscr_advance_inner _ _ E1).
  Qed.
  Lemma keeps_cscr_drain : forall C : a_bulk_consumer S T F E, keeps_bulk_consumer free ok C -> forall fuel, keeps cfree cok (a_cscr_drain dbg d fuel C).
  Proof.
    intros C ([[H1 H2] H3] & H4 & H5 & H6 & H7). pose proof keeps_cs_advance as HA.
    induction fuel as [|fuel IH]; intros s Hs; cbn [a_cscr_drain]; unfold a_cscr_perform_operation, a_cs; kp; first [kw|ks].
  Qed.
  Lemma keeps_cscr : forall fuel (C : a_bulk_consumer S T F E), keeps_bulk_consumer free ok C -> keeps_bulk_consumer cfree cok (a_cscr_consumer dbg d fuel C).
  Proof.
    intros fuel C H. pose proof (keeps_cscr_drain C H fuel) as H0. destruct H as ([[H1 H2] H3] & H4 & H5 & H6 & H7).
    apply keeps_bulk_consumer_of; try (intros; assumption); intros; intros s Hs;
      unfold a_cscr_consume, a_cscr_close, a_cscr_flush, a_cscr_expose, a_cs_enqueue, a_cs_expose_slots, a_cs, cscr_consume_slots; kp; first [kw|ks].
  Qed.
End Scramblers.

Section Codecs.
  Context {S F E V O RT : Type} (free ok : S -> Prop).
  Lemma keeps_encoder : forall (e : a_encode_fn V) (C : a_bulk_consumer S byte F E), keeps_encode e ->
    keeps_bulk_consumer free ok C -> keeps_buffered_consumer free ok (a_encoder e C).
  Proof. intros e C He H. pose proof H as ([[H1 H2] H3] & H4 & H5). split; [split|]; auto. intros x. now apply He. Qed.
  Lemma keeps_decoder_produce : forall (e : a_decode_fn V O) (P : a_bulk_producer S byte F E), keeps_decode e ->
    keeps_bulk_producer free ok P -> keeps free ok (a_decoder_produce e P).
  Proof. intros e P He H s Hs. pose proof (He _ _ _ _ _ P H) as H0. pose proof H as ([H1 H2] & H3 & H4 & H5). unfold a_decoder_produce. kp. Qed.
  Lemma keeps_decoder_slurp : forall (P : a_bulk_producer S byte F E), keeps_bulk_producer free ok P -> keeps free ok (a_decoder_slurp (O := O) P).
  Proof. intros P ([H1 H2] & H3 & H4 & H5) s Hs. unfold a_decoder_slurp. kp. Qed.
  Lemma keeps_decoder : forall (e : a_decode_fn V O) (P : a_bulk_producer S byte F E), keeps_decode e ->
    keeps_bulk_producer free ok P -> keeps_buffered_producer free ok (a_decoder e P).
  Proof. intros e P He H. split; [now apply keeps_decoder_produce|now apply keeps_decoder_slurp]. Qed.
  Lemma keeps_relative_encoder : forall (e : RT -> a_encode_fn V) (C : a_bulk_consumer S byte F E), (forall r, keeps_encode (e r)) ->
    keeps_bulk_consumer free ok C -> keeps_buffered_consumer (fun s => free (rel_inner s)) (fun s => ok (rel_inner s)) (a_relative_encoder e C).
  Proof.
    intros e C He H. pose proof (fun r => He r _ _ _ _ _ C H) as H0. pose proof H as ([[H1 H2] H3] & H4 & H5).
    split; [split|]; intros; intros s Hs; cbn -[await within clean]; unfold a_rel; kp; kw. now apply H0.
  Qed.
  Lemma keeps_relative_decoder : forall (e : RT -> a_decode_fn V O) (P : a_bulk_producer S byte F E), (forall r, keeps_decode (e r)) ->
    keeps_bulk_producer free ok P -> keeps_buffered_producer (fun s => free (rel_inner s)) (fun s => ok (rel_inner s)) (a_relative_decoder e P).
  Proof.
    intros e P He H. split; intros s Hs; cbn -[await within clean]; unfold a_rel; kp; kw; [now apply keeps_decoder_produce|now apply keeps_decoder_slurp].
  Qed.
End Codecs.

Lemma endian_encode_keeps : forall w, keeps_encode (a_endian_encode w).
Proof.
  intros w S F E free ok C H v s Hs. unfold a_endian_encode, a_bulk_consume_full_slice.
  pose proof (keeps_bulk_consume_full_slice free ok C H) as H0. kp. now apply H0.
Qed.
Lemma endian_decode_keeps : forall w, keeps_decode (a_endian_decode w).
Proof.
  intros w S F E free ok P H s Hs. unfold a_endian_decode, a_bulk_overwrite_full_slice.
  pose proof (keeps_bulk_overwrite_full_slice free ok P H) as H0. kp. now apply H0.
Qed.

Section Io.
  Context {S T : Type} (free ok : S -> Prop).
  Lemma keeps_read_exact : forall Rd : a_reader S T, keeps_reader free ok Rd -> forall fuel done buf, keeps free ok (a_read_exact_loop Rd fuel done buf).
  Proof.
    intros Rd H. unfold keeps_reader in H. induction fuel as [|fuel IH]; intros done [|x buf] s Hs; cbn [a_read_exact_loop]; kp; now apply IH.
  Qed.
  Lemma keeps_write_all : forall W : a_writer S T, keeps_writer free ok W -> forall fuel buf, keeps free ok (a_write_all_loop W fuel buf).
  Proof.
    intros W (H1 & H2 & H3). induction fuel as [|fuel IH]; intros [|x buf] s Hs; cbn [a_write_all_loop]; kp; now apply IH.
  Qed.
  Lemma keeps_read_one : forall (Rd : a_reader S T) x0, keeps_reader free ok Rd -> keeps free ok (a_read_one Rd x0).
  Proof. intros Rd x0 H s Hs. unfold a_read_one, a_read_exact. pose proof (keeps_read_exact Rd H) as H0. kp. now apply H0. Qed.
  Lemma keeps_read_some : forall (Rd : a_reader S T) buf, keeps_reader free ok Rd -> keeps free ok (a_read_some Rd buf).
  Proof. intros Rd buf H s Hs. unfold a_read_some. unfold keeps_reader in H. kp. Qed.
  Lemma keeps_buf_reader_producer : forall (Rd : a_buf_reader S T) x0, keeps_buf_reader free ok Rd -> keeps_bulk_producer free ok (a_buf_reader_producer Rd x0).
  Proof.
    intros Rd x0 (H1 & H2 & H3). split; [split|split; [|split]].
    - now apply keeps_read_one.
    - intros s Hs. cbn -[await clean]. unfold a_br_slurp. kp.
    - intros s Hs. cbn -[await clean]. unfold a_br_expose_items. kp.
    - intros n s Hs. cbn -[await clean]. unfold a_br_consider_produced. kp. apply clean_sync. intros s' x H.
      destruct (ar_consume Rd n s) as [s1| |] eqn:E1; try discriminate. injection H as <- <-. eauto.
    - intros buf. now apply keeps_read_some.
  Qed.
  Lemma keeps_reader_producer : forall (Rd : a_reader S T) Q (I : queue Q T) x0, keeps_reader free ok Rd ->
    keeps_bulk_producer (fun s => free (rs_reader s)) (fun s => ok (rs_reader s)) (a_reader_producer Rd I x0).
  Proof.
    intros Rd Q I x0 H. pose proof (keeps_read_one Rd x0 H) as H1. pose proof (fun buf => keeps_read_some Rd buf H) as H2. unfold keeps_reader in H.
    split; [split|split; [|split]]; intros; intros s Hs; cbn -[await within clean ret];
      unfold a_rd_produce, a_rd_slurp, a_rd_expose_items, a_rd_consider_produced, a_rd_bulk_produce, a_rq, a_rs; kp; first [kw|ks].
  Qed.
  Lemma keeps_flush_internal_buffer : forall (W : a_writer S T) Q (I : queue Q T), keeps_writer free ok W ->
    forall fuel, keeps (fun s => free (ws_writer s)) (fun s => ok (ws_writer s)) (a_flush_internal_buffer W I fuel).
  Proof.
    intros W Q I H. pose proof (keeps_write_all W H) as H0. induction fuel as [|fuel IH]; intros s Hs; cbn [a_flush_internal_buffer]; unfold a_wq, a_ws; kp; first [kw|ks].
    now apply H0.
  Qed.
  Lemma keeps_writer_consumer : forall (W : a_writer S T) Q (I : queue Q T) fuel, keeps_writer free ok W ->
    keeps_bulk_consumer (fun s => free (ws_writer s)) (fun s => ok (ws_writer s)) (a_writer_consumer W I fuel).
  Proof.
    intros W Q I fuel H. pose proof (keeps_flush_internal_buffer W Q I H fuel) as H0. pose proof (fun n => keeps_write_all W H n) as H1. destruct H as (H2 & H3 & H4).
    split; [split; [split|]|split; [|split; [|split]]]; try (intros ys s Hs; exact Hs); intros; intros s Hs; cbn -[await within clean];
      unfold a_wr_consume, a_wr_close, a_wr_flush, a_wr_expose_slots, a_wr_consume_slots, a_wr_bulk_consume, a_flushed, a_wq, a_ws; kp; first [kw|ks].
    now apply H1.
  Qed.
End Io.

(** ** Watched objects *)
Definition at_rest {S} (st : S * standing) : Prop := snd st = AtRest.
Definition not_misused {S} (st : S * standing) : Prop := snd st <> Misused.
Lemma rest_ok : forall S (st : S * standing), at_rest st -> not_misused st.
Proof. intros S st H HF. unfold at_rest in H. congruence. Qed.

Lemma watching_clean : forall S X (f : fut S X) st, snd st <> Misused -> clean at_rest not_misused (watching f) st.
Proof.
  intros S X. fix IH 1. intros [p] [s st] H. cbn in *. unfold at_rest, not_misused. destruct (p s) as [[s' [x|w f']]| |]; auto; cbn.
  - now destruct st.
  - split; [now destruct st|]. apply IH. now destruct st.
Qed.
Lemma watch_keeps : forall S X (f : fut S X), keeps at_rest not_misused (watch f).
Proof.
  intros S X f [s st] H. unfold at_rest in H. cbn in H. subst st. apply clean_poll. cbn.
  apply clean_poll. apply watching_clean. discriminate.
Qed.

Lemma watched_keeps_bulk_producer : forall S T F E (P : a_bulk_producer S T F E), keeps_bulk_producer at_rest not_misused (watched_bulk_producer P).
Proof. intros. split; [split|split; [|split]]; intros; apply watch_keeps. Qed.
Lemma watched_keeps_buffered_producer : forall S T F E (P : a_buffered_producer S T F E), keeps_buffered_producer at_rest not_misused (watched_buffered_producer P).
Proof. intros. split; intros; apply watch_keeps. Qed.
Lemma watched_keeps_bulk_consumer : forall S T F E (C : a_bulk_consumer S T F E), keeps_bulk_consumer at_rest not_misused (watched_bulk_consumer C).
Proof.
  intros. split; [split; [split|]|split; [|split; [|split]]]; intros; try apply watch_keeps. unfold at_rest in *. cbn. now rewrite H.
Qed.
Lemma watched_keeps_buffered_consumer : forall S T F E (C : a_buffered_consumer S T F E), keeps_buffered_consumer at_rest not_misused (watched_buffered_consumer C).
Proof. intros. split; [split|]; intros; apply watch_keeps. Qed.
Lemma watched_keeps_reader : forall S T (Rd : a_reader S T), keeps_reader at_rest not_misused (watched_reader Rd).
Proof. intros S T Rd buf. apply watch_keeps. Qed.
Lemma watched_keeps_buf_reader : forall S T (Rd : a_buf_reader S T), keeps_buf_reader at_rest not_misused (watched_buf_reader Rd).
Proof.
  intros S T Rd. split; [|split]; intros; try apply watch_keeps; [intros buf; apply watch_keeps|]. cbn in *. unfold at_rest in *.
  destruct (ar_consume Rd n (fst s)); try discriminate. injection H0 as <-. cbn. now rewrite H.
Qed.
Lemma watched_keeps_writer : forall S T (W : a_writer S T), keeps_writer at_rest not_misused (watched_writer W).
Proof. intros. split; [|split]; intros; apply watch_keeps. Qed.

(** Watching changes nothing else. *)
Lemma watching_same : forall S X (f : fut S X) st s, (let* (s', x) := run (watching f) (s, st) in Ret (fst s', x)) = run f s.
Proof.
  intros S X. fix IH 1. intros [p] st s. cbn. destruct (p s) as [[s' [x|w f']]| |]; cbn; auto.
Qed.
Lemma watch_same : forall S X (f : fut S X) st s, (let* (s', x) := run (watch f) (s, st) in Ret (fst s', x)) = run f s.
Proof.
  intros S X f st s. rewrite <- (watching_same _ _ f (begin_call st) s). unfold watch. destruct f as [p]. cbn. reflexivity.
Qed.

(** ** Merge *)
Section Merge.
  Context {S1 S2 T F E : Type} (free1 ok1 : S1 -> Prop) (free2 ok2 : S2 -> Prop).
  Variables (H01 : forall s, free1 s -> ok1 s) (H02 : forall s, free2 s -> ok2 s).
  Variables (P1 : a_producer S1 T F E) (P2 : a_producer S2 T F E).
  Variables (HK1 : keeps_producer free1 ok1 P1) (HK2 : keeps_producer free2 ok2 P2).

  Definition owned_clean {S X} (free ok : S -> Prop) (o : owned S X) : Prop := ok (o_producer o) /\ clean free ok (o_future o) (o_producer o).
  Definition merge_clean (m : a_merge S1 S2 T F E) : Prop :=
    (forall o, a_future1 m = Some o -> owned_clean free1 ok1 o) /\ (forall o, a_future2 m = Some o -> owned_clean free2 ok2 o).

  Lemma poll_owned_clean : forall S X (free ok : S -> Prop) (o : owned S X) r, owned_clean free ok o -> poll_owned o = Ret r ->
    match r with Ready (p, _) => free p | Pending _ o' => owned_clean free ok o' end.
  Proof.
    intros S X free ok [f p] r [H1 H2] H. unfold poll_owned in H. cbn in *. apply clean_poll in H2.
    destruct (poll f p) as [[p' [x|w f']]| |]; cbn in H; try discriminate; injection H as <-; auto.
  Qed.
  Lemma own1_clean : forall p, free1 p -> owned_clean free1 ok1 (own P1 p).
  Proof. intros p Hp. split; [exact (H01 _ Hp)|exact (HK1 _ Hp)]. Qed.
  Lemma own2_clean : forall p, free2 p -> owned_clean free2 ok2 (own P2 p).
  Proof. intros p Hp. split; [exact (H02 _ Hp)|exact (HK2 _ Hp)]. Qed.

  Ltac mc := split; cbn; intros ? HH; try discriminate HH; try (injection HH as <-); auto using own1_clean, own2_clean.

  Lemma await_first_clean : forall fut1 m m' r, merge_clean m -> owned_clean free1 ok1 fut1 -> await_first P1 fut1 m = Ret (m', r) -> merge_clean m'.
  Proof.
    intros fut1 m m' r [H1 H2] Ho H. unfold await_first in H. destruct (poll_owned fut1) as [r1| |] eqn:E1; cbn in H; try discriminate.
    apply (poll_owned_clean _ _ _ _ _ _ Ho) in E1. destruct r1 as [[p x]|w o']; injection H as <- _; mc.
  Qed.
  Lemma await_second_clean : forall fut2 m m' r, merge_clean m -> owned_clean free2 ok2 fut2 -> await_second P2 fut2 m = Ret (m', r) -> merge_clean m'.
  Proof.
    intros fut2 m m' r [H1 H2] Ho H. unfold await_second in H. destruct (poll_owned fut2) as [r1| |] eqn:E1; cbn in H; try discriminate.
    apply (poll_owned_clean _ _ _ _ _ _ Ho) in E1. destruct r1 as [[p x]|w o']; injection H as <- _; mc.
  Qed.
  Lemma select_left_clean : forall p1 x m, free1 p1 -> merge_clean m -> merge_clean (fst (select_left P1 p1 x m)).
  Proof. intros p1 [[x|f]|e] m Hp [H1 H2]; mc. Qed.
  Lemma select_right_clean : forall p2 x m, free2 p2 -> merge_clean m -> merge_clean (fst (select_right P2 p2 x m)).
  Proof. intros p2 [[x|f]|e] m Hp [H1 H2]; mc. Qed.
  Lemma await_select_clean : forall sf fut1 fut2 m' r, owned_clean free1 ok1 fut1 -> owned_clean free2 ok2 fut2 ->
    await_select P1 P2 sf fut1 fut2 = Ret (m', r) -> merge_clean m'.
  Proof.
    intros sf fut1 fut2 m' r Ho1 Ho2 H. unfold await_select in H. destruct sf.
    - destruct (poll_owned fut2) as [r2| |] eqn:E2; cbn in H; try discriminate. apply (poll_owned_clean _ _ _ _ _ _ Ho2) in E2. destruct r2 as [[p2 x]|w o2].
      + injection H as H. assert (Em : m' = fst (select_right P2 p2 x (mk_a_merge (Some fut1) (Some fut2)))) by now rewrite H. rewrite Em. apply select_right_clean; [exact E2|mc].
      + destruct (poll_owned fut1) as [r1| |] eqn:E1; cbn in H; try discriminate. apply (poll_owned_clean _ _ _ _ _ _ Ho1) in E1. destruct r1 as [[p1 x]|w' o1].
        * injection H as H. assert (Em : m' = fst (select_left P1 p1 x (mk_a_merge (Some fut1) (Some o2)))) by now rewrite H. rewrite Em. apply select_left_clean; [exact E1|mc].
        * injection H as <- _. mc.
    - destruct (poll_owned fut1) as [r1| |] eqn:E1; cbn in H; try discriminate. apply (poll_owned_clean _ _ _ _ _ _ Ho1) in E1. destruct r1 as [[p1 x]|w o1].
      + injection H as H. assert (Em : m' = fst (select_left P1 p1 x (mk_a_merge (Some fut1) (Some fut2)))) by now rewrite H. rewrite Em. apply select_left_clean; [exact E1|mc].
      + destruct (poll_owned fut2) as [r2| |] eqn:E2; cbn in H; try discriminate. apply (poll_owned_clean _ _ _ _ _ _ Ho2) in E2. destruct r2 as [[p2 x]|w' o2].
        * injection H as H. assert (Em : m' = fst (select_right P2 p2 x (mk_a_merge (Some o1) (Some fut2)))) by now rewrite H. rewrite Em. apply select_right_clean; [exact E2|mc].
        * injection H as <- _. mc.
  Qed.
  Lemma merge_body_clean : forall sf at_ m m' r, merge_clean m -> merge_body P1 P2 sf at_ m = Ret (m', r) -> merge_clean m'.
  Proof.
    intros sf at_ m m' r Hm H. pose proof Hm as [H1 H2]. unfold merge_body in H.
    destruct at_, (a_future1 m) as [f1|], (a_future2 m) as [f2|]; try discriminate;
      eauto using await_first_clean, await_second_clean, await_select_clean.
  Qed.
  Lemma merge_poll_clean : forall fuel sf at_ m m' r, merge_clean m -> merge_poll P1 P2 fuel sf at_ m = Ret (m', r) -> merge_clean m'.
  Proof.
    induction fuel as [|fuel IH]; intros sf at_ m m' r Hm H; cbn in H; try discriminate.
    destruct (merge_body P1 P2 sf at_ m) as [[m1 [|q]]| |] eqn:E1; cbn in H; try discriminate.
    - eauto using merge_body_clean.
    - injection H as <- _. eauto using merge_body_clean.
  Qed.
  Lemma merge_session_clean : forall fuel acts at_ m m' out l, merge_clean m -> merge_session P1 P2 fuel acts at_ m = Ret (m', out, l) -> merge_clean m'.
  Proof.
    intros fuel. induction acts as [|act acts IH]; intros at_ m m' out l Hm H; cbn in H.
    - now injection H as <- _ _.
    - destruct (merge_poll P1 P2 fuel (order act) _ m) as [[m1 r]| |] eqn:E1; cbn in H; try discriminate.
      apply (merge_poll_clean _ _ _ _ _ _ Hm) in E1. destruct r as [[[x|f]|e]|w at'].
      + destruct (merge_session P1 P2 fuel acts AtStart m1) as [[[m2 xs] l2]| |] eqn:E2; cbn in H; try discriminate. injection H as <- _ _. eauto.
      + now injection H as <- _ _.
      + now injection H as <- _ _.
      + eauto.
  Qed.
End Merge.

(** ** Shared objects *)
Section Shared.
  Context {S : Type} (free ok : S -> Prop) (H0 : forall s, free s -> ok s).

  Fixpoint calm {X} (p : prog S X) (s : S) : Prop :=
    match p with
    | Done _ => free s
    | Step f => match f s with Ret (s', p') => ok s' /\ calm p' s' | Panic | NoFuel => True end
    end.
  Definition pkeeps {X} (p : prog S X) : Prop := forall s, free s -> calm p s.

  Lemma calm_fut_prog : forall X (f : fut S X) s, clean free ok f s -> calm (fut_prog f) s.
  Proof.
    intros X. fix IH 1. intros [p] s H. cbn in *. destruct (p s) as [[s' [x|w f']]| |]; auto; cbn.
    destruct H as [H1 H2]. split; [exact H1|]. now apply IH.
  Qed.
  Lemma pkeeps_fut_prog : forall X (f : fut S X), keeps free ok f -> pkeeps (fut_prog f).
  Proof. intros X f H s Hs. apply calm_fut_prog. now apply H. Qed.
  Lemma pkeeps_bind : forall X Y (p : prog S X) (k : X -> prog S Y), pkeeps p -> (forall x, pkeeps (k x)) -> pkeeps (prog_bind p k).
  Proof.
    intros X Y p k Hp Hk s Hs. specialize (Hp s Hs). clear Hs. revert p s Hp. fix IH 1. intros [x|f] s Hp; cbn in *.
    - now apply Hk.
    - destruct (f s) as [[s' p']| |]; auto. destruct Hp as [H1 H2]. split; [exact H1|]. now apply IH.
  Qed.
  Lemma pkeeps_done : forall X (x : X), pkeeps (Done x).
  Proof. intros X x s Hs. exact Hs. Qed.

  Context {X L K : Type} (sem : L -> K -> L * body S X).
  Variable Hsem : forall l c l' p, sem l c = (l', Locked p) -> pkeeps p.

  Definition shared_clean (y : system S X L K) : Prop :=
    ok (sy_shared y) /\ (sy_holder y = None -> free (sy_shared y)) /\
    forall i t, nth_error (sy_tasks y) i = Some t ->
      match tk_now t with
      | Idle => True
      | Waiting _ _ p => pkeeps p
      | Running _ _ p => sy_holder y = Some i /\ calm p (sy_shared y)
      end.

  Lemma shared_clean_step : forall ev y y', shared_clean y -> (forall i, ev = Drop i -> sy_holder y <> Some i) -> sys_step sem ev y = Ret y' -> shared_clean y'.
  Proof.
    intros [i|i] y y' (Hok & Hfree & HT) Hd H; cbn in H; destruct (nth_error (sy_tasks y) i) as [t|] eqn:Ei; try (injection H as <-; exact (conj Hok (conj Hfree HT)));
      pose proof (HT i t Ei) as Hi.
    - destruct (tk_now t) as [|l c p|l c [x|f]].
      + destruct (tk_calls t) as [|c cs]; [injection H as <-; exact (conj Hok (conj Hfree HT))|].
        destruct (sem (tk_local t) c) as [l' [x|p]] eqn:Es; injection H as <-; (split; [exact Hok|split; [exact Hfree|]]); cbn; intros j u Hu;
          rewrite (@nth_error_update _ _ _ _ _ _ Ei) in Hu; destruct (Nat.eqb_spec j i); try (injection Hu as <-; cbn; eauto); exact (HT j u Hu).
      + destruct (sy_holder y) as [h|] eqn:Eh; injection H as <-.
        * split; [exact Hok|split; [rewrite Eh; discriminate|]]. intros j u Hu. specialize (HT j u Hu). destruct (tk_now u); auto. now rewrite Eh.
        * split; [exact Hok|split; [discriminate|]]. cbn. intros j u Hu. rewrite (@nth_error_update _ _ _ _ _ _ Ei) in Hu.
          destruct (Nat.eqb_spec j i) as [->|Hne]; [injection Hu as <-; cbn; split; auto|].
          specialize (HT j u Hu). destruct (tk_now u); auto. destruct HT as [HF _]. discriminate HF.
      + destruct Hi as [Hh Hc]. cbn in Hc. injection H as <-. split; [exact (H0 _ Hc)|split; [intros _; exact Hc|]]. cbn. intros j u Hu.
        rewrite (@nth_error_update _ _ _ _ _ _ Ei) in Hu. destruct (Nat.eqb_spec j i) as [->|Hne]; [injection Hu as <-; exact Logic.I|].
        specialize (HT j u Hu). destruct (tk_now u); auto. destruct HT as [HF _]. congruence.
      + destruct Hi as [Hh Hc]. cbn in Hc. destruct (f (sy_shared y)) as [[s1 p1]| |]; try discriminate. injection H as <-. destruct Hc as [Hc1 Hc2].
        split; [exact Hc1|split; [cbn; congruence|]]. cbn. intros j u Hu.
        rewrite (@nth_error_update _ _ _ _ _ _ Ei) in Hu. destruct (Nat.eqb_spec j i) as [->|Hne]; [injection Hu as <-; cbn; auto|].
        specialize (HT j u Hu). destruct (tk_now u); auto. destruct HT as [HF _]. congruence.
    - destruct (tk_now t) as [|l c p|l c p].
      + injection H as <-; exact (conj Hok (conj Hfree HT)).
      + injection H as <-. split; [exact Hok|split; [exact Hfree|]]. cbn. intros j u Hu. rewrite (@nth_error_update _ _ _ _ _ _ Ei) in Hu.
        destruct (Nat.eqb_spec j i) as [->|Hne]; [injection Hu as <-; exact Logic.I|]. exact (HT j u Hu).
      + exfalso. exact (Hd i eq_refl (proj1 Hi)).
  Qed.
  Lemma shared_clean_careful : forall y evs y', careful sem y evs y' -> shared_clean y -> shared_clean y'.
  Proof. intros y evs y' H. induction H as [|y ev y1 evs y' H1 H2 H3 IH]; auto. intros Hy. apply IH. eauto using shared_clean_step. Qed.
  Lemma shared_clean_new : forall s tasks, free s -> shared_clean (system_new s tasks).
  Proof.
    intros s tasks Hs. split; [exact (H0 _ Hs)|split; [intros _; exact Hs|]]. cbn. intros i t Hi. rewrite nth_error_map in Hi.
    destruct (nth_error tasks i); [|discriminate]. now injection Hi as <-.
  Qed.
End Shared.

Section SharedCodecs.
  Context {S V F E O RT : Type} (free ok : S -> Prop) (H0 : forall s, free s -> ok s).

  Lemma shared_encoder_locked : forall (e : RT -> a_encode_fn V) (C : a_bulk_consumer S byte F E), (forall r, keeps_encode (e r)) -> keeps_bulk_consumer free ok C ->
    forall l c l' p, a_shared_relative_encoder e C l c = (l', Locked p) -> pkeeps free ok p.
  Proof.
    intros e C He H l [v|f| |r] l' p Hp; cbn in Hp; try discriminate Hp; injection Hp as <- <-; apply pkeeps_fut_prog; first [exact H0|now apply He|now destruct H as ([_ H] & _)].
  Qed.
  Lemma shared_encoder_locked_absolute : forall (e : a_encode_fn V) (C : a_bulk_consumer S byte F E), keeps_encode e -> keeps_bulk_consumer free ok C ->
    forall l c l' p, a_shared_encoder e C l c = (l', Locked p) -> pkeeps free ok p.
  Proof.
    intros e C He H l [v|f| |[]] l' p Hp; cbn in Hp; try discriminate Hp; injection Hp as <- <-; apply pkeeps_fut_prog; first [exact H0|now apply He|now destruct H as ([_ H] & _)].
  Qed.
  Lemma shared_decoder_locked : forall (e : RT -> a_decode_fn V O) (P : a_bulk_producer S byte F E), (forall r, keeps_decode (e r)) -> keeps_bulk_producer free ok P ->
    forall l c l' p, a_shared_relative_decoder e P l c = (l', Locked p) -> pkeeps free ok p.
  Proof.
    intros e P He H l [| |r] l' p Hp; cbn in Hp; try discriminate Hp; injection Hp as <- <-; pose proof H as ([_ H2] & H3 & _).
    - apply pkeeps_bind; [apply pkeeps_fut_prog; [exact H0|assumption]|]. intros [[x|f]|er]; try apply pkeeps_done.
      apply pkeeps_bind; [apply pkeeps_fut_prog; [exact H0|exact (He _ _ _ _ _ _ P H)]|]. intros [v|er]; apply pkeeps_done.
    - apply pkeeps_bind; [apply pkeeps_fut_prog; [exact H0|assumption]|]. intros r. apply pkeeps_done.
  Qed.
  Lemma shared_decoder_locked_absolute : forall (e : a_decode_fn V O) (P : a_bulk_producer S byte F E), keeps_decode e -> keeps_bulk_producer free ok P ->
    forall l c l' p, a_shared_decoder e P l c = (l', Locked p) -> pkeeps free ok p.
  Proof.
    intros e P He H l [| |[]] l' p Hp; cbn in Hp; try discriminate Hp; injection Hp as <- <-; pose proof H as ([_ H2] & H3 & _).
    - apply pkeeps_bind; [apply pkeeps_fut_prog; [exact H0|assumption]|]. intros [[x|f]|er]; try apply pkeeps_done.
      apply pkeeps_bind; [apply pkeeps_fut_prog; [exact H0|exact (He _ _ _ _ _ P H)]|]. intros [v|er]; apply pkeeps_done.
    - apply pkeeps_bind; [apply pkeeps_fut_prog; [exact H0|assumption]|]. intros r. apply pkeeps_done.
  Qed.
End SharedCodecs.

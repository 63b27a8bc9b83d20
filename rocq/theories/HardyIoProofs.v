(** Proofs: the adaptors for readers and writers cause no panics. *)
From Coq Require Import Bool List Arith Lia.
From Verif Require Import Prelude ListFacts QueueModel QueueSpec QueueProofs Traits BasicModel Contracts AdaptorSpec BasicSpec SliceModel SliceProofs
  RulesSpec SafeSpec SafeProofs IoModel IoSpec AsyncModel AsyncAdaptorModel AsyncIoModel AsyncIoSpec AsyncSpec AsyncProofs AsyncIoProofs AbideSpec
  HardySpec HardyProofs HardyIoSpec.
Import ListNotations.
Set Implicit Arguments.

(** ** Objects with bulk methods of their own *)
Section Intro.
  Context {S T F E : Type}.

  Lemma hardy_producer_all : forall sl (P : a_bulk_producer S T F E) (Inv : S -> nat -> Prop),
    (forall s k, Inv s k -> Inv s 0) ->
    (forall s k, Inv s k -> ok_polls (fun s => Inv s 0) (fun s' r => forall i, r = Ok (inl i) -> Inv s' (k - 1)) (ap_produce P) s) ->
    (forall s k, sl = true -> Inv s k -> ok_polls (fun s => Inv s 0) (fun s' r => r = Ok tt -> Inv s' k) (ap_slurp P) s) ->
    (forall s k, Inv s k -> ok_polls (fun s => Inv s 0) (fun s' r => forall ys, r = Ok (inl ys) -> Inv s' (length ys)) (ap_expose P) s) ->
    (forall s k n, Inv s k -> n <= k -> ok_polls (fun s => Inv s 0) (fun s' r => r = Ok tt -> Inv s' (k - n)) (ap_consider P n) s) ->
    (forall buf s k, Inv s k -> ok_polls (fun s => Inv s 0) (fun s' x => forall n, snd x = Ok (inl n) -> Inv s' 0) (ap_bulk_produce P buf) s) ->
    forall s k, Inv s k -> hardy_p sl P s k.
  Proof.
    intros sl P Inv Hless Hproduce Hslurp Hexpose Hconsider Hbulk s k HI.
    apply hardy_intro with (Inv := fun s m => pm_over m = true \/ Inv s (pm_shown m)); [|now right].
    clear s k HI. intros s [over k] o HI Ho. unfold p_calls, p_may in Ho. cbn [pm_over pm_shown] in *.
    destruct over; [discriminate|]. destruct HI as [HI|HI]; [discriminate|]. cbn in Ho.
    split; [right; exact (Hless _ _ HI)|].
    destruct o as [| | |n|buf]; cbn [ap_future].
    - eapply op_k; [exact (Hproduce _ _ HI)|now right|]. intros s' r H. apply op_ret. cbn. destruct r as [[i|f]|e]; cbn; auto. right. eauto.
    - eapply op_k; [exact (Hslurp _ _ Ho HI)|now right|]. intros s' r H. apply op_ret. cbn. destruct r as [[]|e]; cbn; auto.
    - eapply op_k; [exact (Hexpose _ _ HI)|now right|]. intros s' r H. apply op_ret. cbn. destruct r as [[i|f]|e]; cbn; auto.
    - rewrite andb_true_r in Ho. apply Nat.leb_le in Ho. eapply op_k; [exact (Hconsider _ _ _ HI Ho)|now right|].
      intros s' r H. apply op_ret. cbn. destruct r as [[]|e]; cbn; auto.
    - eapply op_k; [exact (Hbulk buf _ _ HI)|now right|]. intros s' [b r] H. apply op_ret. cbn in *. destruct r as [[n|f]|e]; cbn; eauto.
  Qed.

  Lemma hardy_consumer_all : forall (C : a_bulk_consumer S T F E) (Inv : S -> nat -> nat -> Prop),
    (forall s k w, Inv s k w -> Inv s 0 0) ->
    (forall x s k w, Inv s k w -> ok_polls (fun s => Inv s 0 0) (fun s' r => r = Ok tt -> Inv s' 0 0) (ac_consume C x) s) ->
    (forall f s k w, Inv s k w -> ok_polls (fun _ => True) (fun _ _ => True) (ac_close C f) s) ->
    (forall s k w, Inv s k w -> ok_polls (fun s => Inv s 0 0) (fun s' r => r = Ok tt -> Inv s' k w) (ac_flush C) s) ->
    (forall s k w, Inv s k w -> ok_polls (fun s => Inv s 0 0) (fun s' r => forall n, r = Ok n -> Inv s' n 0) (ac_expose C) s) ->
    (forall ys s k w, Inv s k w -> length ys <= k -> Inv (ac_write C ys s) k (Nat.max w (length ys))) ->
    (forall n s k w, Inv s k w -> n <= w -> ok_polls (fun s => Inv s 0 0) (fun s' r => r = Ok tt -> Inv s' (k - n) (w - n)) (ac_consume_slots C n) s) ->
    (forall buf s k w, Inv s k w -> ok_polls (fun s => Inv s 0 0) (fun s' r => forall n, r = Ok n -> Inv s' 0 0) (ac_bulk_consume C buf) s) ->
    forall s k w, Inv s k w -> hardy_c C s k w.
  Proof.
    intros C Inv Hless Hconsume Hclose Hflush Hexpose Hwrite Hslots Hbulk s k w HI.
    apply hardy_intro with (Inv := fun s m => cm_over m = true \/ Inv s (cm_shown m) (cm_written m)); [|now right].
    clear s k w HI. intros s [over k w] o HI Ho. unfold c_calls, c_may in Ho. cbn [cm_over cm_shown cm_written] in *.
    destruct over; [discriminate|]. destruct HI as [HI|HI]; [discriminate|]. cbn in Ho.
    split; [destruct o; cbn; eauto|].
    destruct o as [x|f| | |ys|n|buf]; cbn [ac_future].
    - eapply op_k; [exact (Hconsume x _ _ _ HI)|now right|]. intros s' r H. apply op_ret. cbn. destruct r as [[]|e]; cbn; auto.
    - eapply op_k; [exact (Hclose f _ _ _ HI)|now left|]. intros s' r H. apply op_ret. cbn. auto.
    - eapply op_k; [exact (Hflush _ _ _ HI)|now right|]. intros s' r H. apply op_ret. cbn. destruct r as [[]|e]; cbn; auto.
    - eapply op_k; [exact (Hexpose _ _ _ HI)|now right|]. intros s' r H. apply op_ret. cbn. destruct r as [n|e]; cbn; auto.
    - apply op_sync. apply Nat.leb_le in Ho. cbn -[Nat.min Nat.max]. right. rewrite Nat.min_r by exact Ho. now apply Hwrite.
    - rewrite andb_true_r in Ho. apply Nat.leb_le in Ho. eapply op_k; [exact (Hslots _ _ _ _ HI Ho)|now right|].
      intros s' r H. apply op_ret. cbn. destruct r as [[]|e]; cbn; auto.
    - eapply op_k; [exact (Hbulk buf _ _ _ HI)|now right|]. intros s' r H. apply op_ret. cbn in *. destruct r as [n|e]; cbn; eauto.
  Qed.
End Intro.

(** ** IntoSlice *)
Lemma into_slice_hardy : forall T (l : list T), hardy_c (@a_into_slice T) (into_slice_new l) 0 0.
Proof.
  intros T l. eapply lawful_consumer_hardy with (w := []) (R := is_rel (length l)); [apply same_into_slice|apply into_slice_core|apply sync_waiting_consumer|reflexivity| |apply is_rel_new].
  intros s a H. cbn. intros _. rewrite Nat.add_0_r. destruct s. exact H.
Qed.

(** ** Readers *)
Section Readers.
  Context {S T : Type}.

  Lemma read_one_hardy : forall (Rd : a_reader S T) x0 D (Q : S -> Prop) s,
    ok_polls D (read_within [x0] (fun _ => Q)) (ar_read Rd [x0]) s ->
    ok_polls D (fun s' r => forall i, r = Ok (inl i) -> Q s') (a_read_one Rd x0) s.
  Proof.
    intros Rd x0 D Q s H. unfold a_read_one, a_read_exact. cbn [length a_read_exact_loop].
    eapply op_k with (Q0 := fun s' (x : list T * res unit io_error) => snd x = Ok tt -> length (fst x) = 1 /\ Q s'); [|intros s' Hs; exact Hs|].
    - eapply op_k; [exact H|auto|]. intros s' [buf [n|e]] [Hl Hn]; cbn [fst snd length] in *; [|apply op_ret; discriminate].
      destruct (Hn _ eq_refl) as [Hle HQ]. apply op_attempt_k. rewrite slice_from_ok by lia. cbn [safely].
      destruct (Nat.eqb_spec n 0) as [->|Hz]; [apply op_ret; discriminate|].
      assert (n = 1) by lia. subst n. destruct buf as [|b [|]]; try discriminate Hl. cbn. auto.
    - intros s' [buf [[]|e]] Hx; cbn [fst snd] in *.
      + destruct (Hx eq_refl) as [Hl HQ]. destruct buf as [|b [|]]; try discriminate Hl. cbn. auto.
      + destruct (is_unexpected_eof e); apply op_ret; discriminate.
  Qed.

  Lemma read_some_hardy : forall (Rd : a_reader S T) buf D (Q : nat -> S -> Prop) s,
    ok_polls D (read_within buf Q) (ar_read Rd buf) s ->
    ok_polls D (fun s' x => forall n, snd x = Ok (inl n) -> Q n s') (a_read_some Rd buf) s.
  Proof.
    intros Rd buf D Q s H. unfold a_read_some. eapply op_k; [exact H|auto|]. intros s' [b [n|e]] [Hl Hn]; cbn [fst snd] in *; [|apply op_ret; discriminate].
    destruct (Hn _ eq_refl) as [Hle HQ]. destruct (Nat.eqb_spec n 0) as [->|Hz]; [apply op_ret; discriminate|].
    apply op_ret. cbn. intros m [= <-]. auto.
  Qed.

  Lemma buf_reader_hardy : forall (Rd : a_buf_reader S T) OK x0, gentle_buf_reader Rd OK ->
    forall s k, OK s k -> hardy_p true (a_buf_reader_producer Rd x0) s k.
  Proof.
    intros Rd OK x0 G s k H.
    assert (Hr : forall buf s k, OK s k -> ok_polls (fun s => OK s 0) (read_within buf (fun n s => OK s (k - n))) (ar_read Rd buf) s).
    { intros. now apply op_endures, (gb_read G). }
    assert (Hf : forall s k, OK s k -> OK s 0 /\ ok_polls (fun s => OK s 0) (fun s' r => forall ys, r = Ok ys -> k <= length ys /\ OK s' (length ys)) (ar_fill_buf Rd) s).
    { intros s' k' H'. exact (proj1 (op_endures (fun s => OK s 0) (fun s' r => forall ys, r = Ok ys -> k' <= length ys /\ OK s' (length ys)) (ar_fill_buf Rd) s') (gb_fill G _ _ H')). }
    assert (H0 : forall s, OK s 0 -> exists k', 0 <= k' /\ OK s k') by (intros; exists 0; auto).
    apply hardy_producer_all with (Inv := fun s k => exists k', k <= k' /\ OK s k'); [..|eauto]; clear s k H; cbn [a_buf_reader_producer ap_produce ap_slurp ap_expose ap_consider ap_bulk_produce ap_producer ap_buffered].
    - intros s k (k' & Hk & H). exists 0. split; [lia|exact (proj1 (Hf _ _ H))].
    - intros s k (k' & Hk & H). eapply op_mono; [exact H0| |apply read_one_hardy with (Q := fun s => OK s (k' - 1)) (D := fun s => OK s 0)].
      + cbn beta. intros s' r Hs i Ei. exists (k' - 1). split; [lia|]. exact (Hs _ Ei).
      + eapply op_mono; [intros s' Hs; exact Hs| |exact (Hr [x0] _ _ H)].
        intros s' x [Hl Hn]. split; [exact Hl|]. intros n En. destruct (Hn _ En) as [Hle HQ]. split; [exact Hle|]. intros Hz.
        cbn [length] in Hle. assert (n = 1) by lia. subst n. auto.
    - intros s k _ (k' & Hk & H). unfold a_br_slurp. eapply op_k; [exact (proj2 (Hf _ _ H))|exact H0|]. intros s' [ys|e] Hs; apply op_ret; [|discriminate].
      intros _. destruct (Hs _ eq_refl) as [Hl Hs']. exists (length ys). split; [lia|exact Hs'].
    - intros s k (k' & Hk & H). unfold a_br_expose_items. eapply op_k; [exact (proj2 (Hf _ _ H))|exact H0|].
      intros s' [[|y ys]|e] Hs; try (apply op_ret; discriminate). destruct (Hs _ eq_refl) as [Hl Hs'].
      eapply op_k; [exact (proj2 (Hf _ _ Hs'))|exact H0|]. intros s2 [zs|e] Hs2; apply op_ret; [|discriminate].
      intros ? [= <-]. exists (length zs). split; [lia|]. exact (proj2 (Hs2 _ eq_refl)).
    - intros s k n (k' & Hk & H) Hn. unfold a_br_consider_produced. apply op_sync_k. assert (Hn' : n <= k') by lia. pose proof (gb_consume G _ H Hn') as Hc.
      destruct (ar_consume Rd n s) as [s'| |]; cbn in *; auto. intros _. exists (k' - n). split; [lia|exact Hc].
    - intros buf s k (k' & Hk & H). eapply op_mono; [exact H0| |apply read_some_hardy with (Q := fun n s => OK s (k' - n)) (D := fun s => OK s 0)].
      + cbn beta. intros s' x Hs n En. exists (k' - n). split; [lia|]. exact (Hs _ En).
      + exact (Hr buf _ _ H).
  Qed.

  Context {Q : Type} (I : queue Q T) (c : nat) (RQ : Q -> list T -> nat -> list T -> Prop).
  Hypothesis LQ : lawful_queue I c RQ.

  Lemma q_is_empty_spec : forall q items k w, RQ q items k w -> q_is_empty I q = match items with [] => true | _ => false end.
  Proof. intros q items k w H. unfold q_is_empty. rewrite (lq_len LQ H). now destruct items. Qed.

  Definition rd_inv (OK : S -> Prop) (st : reader_state S Q) (k : nat) : Prop :=
    OK (rs_reader st) /\ exists items kq w, RQ (rs_queue st) items kq w /\ k <= length items.

  Lemma rd_expose_hardy : forall (OK : S -> Prop) s q items k w, OK s -> RQ q items k w -> items <> [] ->
    ok_polls (fun st => rd_inv OK st 0) (fun st r => forall ys, r = Ok (inl ys) -> rd_inv OK st (length ys))
      (let! o := a_rq (q_expose_items I) in let! items := attempt (expect o) in ret (Ok (E := io_error) (inl (B := unit) items))) (mk_reader_state s q).
  Proof.
    intros OK s q items k w Hs HR Hi. unfold a_rq. apply op_sync_k. cbn [rs_queue rs_reader]. destruct (lq_expose_items LQ HR Hi) as (q' & ys & rest & E1 & Hy & -> & HR').
    rewrite E1. cbn. intros zs [= <-]. split; [exact Hs|]. exists (ys ++ rest), k, w. split; [exact HR'|]. rewrite app_length. lia.
  Qed.

  Lemma reader_hardy : forall (Rd : a_reader S T) OK x0, gentle_reader Rd OK -> 1 <= c ->
    forall s q items k w, OK s -> RQ q items k w -> hardy_p true (a_reader_producer Rd I x0) (mk_reader_state s q) (length items).
  Proof.
    intros Rd OK x0 G Hc s q items k w Hs HR.
    assert (Hr : forall buf s, OK s -> ok_polls OK (read_within buf (fun _ => OK)) (ar_read Rd buf) s).
    { intros. now apply op_endures, G. }
    apply hardy_producer_all with (Inv := rd_inv OK); [..|split; cbn; eauto 6]; clear s q items k w Hs HR; cbn [a_reader_producer ap_produce ap_slurp ap_expose ap_consider ap_bulk_produce ap_producer ap_buffered].
    - intros st k (Hs & items & kq & w & HR & Hk). split; [exact Hs|]. exists items, kq, w. split; [exact HR|lia].
    - intros [s q] k (Hs & items & kq & w & HR & Hk). cbn [rs_reader rs_queue] in *. unfold a_rd_produce, a_rq. apply op_sync_k. cbn [rs_queue rs_reader].
      destruct items as [|x items].
      + rewrite (lq_dequeue_empty LQ HR). cbn [bind safely fst snd]. unfold a_rs.
        eapply op_within; [intros; reflexivity|intros; reflexivity|apply read_one_hardy with (D := OK) (Q := OK); exact (Hr _ _ Hs)|..]; cbn.
        * intros i Hi. split; [exact Hi|]. exists [], kq, w. auto.
        * intros i r Hi x Er. split; [exact (Hi _ Er)|]. exists [], kq, w. split; [exact HR|cbn in *; lia].
      + destruct (lq_dequeue LQ HR) as (q' & E1 & HR'). rewrite E1. cbn. intros y _. split; [exact Hs|]. exists items, kq, w. split; [exact HR'|cbn in *; lia].
    - intros st k _ H. apply op_ret. intros _. exact H.
    - intros [s q] k (Hs & items & kq & w & HR & Hk). cbn [rs_reader rs_queue] in *. unfold a_rd_expose_items. apply op_get_k. cbn [rs_queue].
      rewrite (q_is_empty_spec HR). destruct items as [|x items]; [|eapply rd_expose_hardy; [exact Hs|exact HR|discriminate]].
      unfold a_rq at 1. apply op_sync_k. cbn [rs_queue rs_reader].
      destruct (lq_expose_slots LQ HR) as (q' & n & E1 & Hn & Hn' & HR'); [cbn; lia|]. rewrite E1. cbn [bind safely fst snd].
      apply op_attempt_k. cbn [expect safely]. unfold a_rs.
      eapply op_within_k; [intros; reflexivity|intros; reflexivity|exact (Hr (repeat x0 n) _ Hs)|..]; cbn [rs_queue].
      + intros i Hi. split; [exact Hi|]. exists [], n, []. auto.
      + intros i [buf [m|e]] [Hl Hm]; cbn [fst snd] in *; [|apply op_ret; discriminate]. rewrite repeat_length in *. destruct (Hm _ eq_refl) as [Hle Hok].
        assert (HL : length (firstn m buf) = m) by (rewrite firstn_length; lia).
        assert (HR2 : RQ (q_write I (firstn m buf) q') [] n (firstn m buf)).
        { pose proof (lq_write LQ (firstn m buf) HR') as H2. rewrite overlay_nil in H2. apply H2. lia. }
        unfold a_rq at 1. apply op_sync_k. cbn [bind safely fst snd rs_reader rs_queue].
        destruct (Nat.eqb_spec m 0) as [->|Hz]; [apply op_ret; discriminate|].
        unfold a_rq at 1. apply op_sync_k. cbn [rs_queue rs_reader].
        destruct (lq_consider_enqueued LQ m HR2) as (q3 & E3 & HR3); [lia|]. rewrite E3. cbn [bind safely fst snd].
        eapply rd_expose_hardy; [auto|exact HR3|]. rewrite firstn_all2 by lia. cbn [app]. intros E. rewrite E in HL. cbn in HL. lia.
    - intros [s q] k n (Hs & items & kq & w & HR & Hk) Hn. cbn [rs_reader rs_queue] in *. unfold a_rd_consider_produced, a_rq. apply op_sync_k. cbn [rs_queue rs_reader].
      destruct (lq_consider_dequeued LQ n HR) as (q' & E1 & HR'); [lia|]. rewrite E1. cbn. intros _. split; [exact Hs|].
      exists (skipn n items), kq, w. split; [exact HR'|]. rewrite skipn_length. lia.
    - intros buf [s q] k (Hs & items & kq & w & HR & Hk). cbn [rs_reader rs_queue] in *. unfold a_rd_bulk_produce. apply op_get_k. cbn [rs_queue].
      rewrite (q_is_empty_spec HR). destruct items as [|x items].
      + unfold a_rs. eapply op_within; [intros; reflexivity|intros; reflexivity|apply read_some_hardy with (D := OK) (Q := fun _ => OK); exact (Hr _ _ Hs)|..]; cbn.
        * intros i Hi. split; [exact Hi|]. exists [], kq, w. auto.
        * intros i r Hi n Er. split; [exact (Hi _ Er)|]. exists [], kq, w. auto.
      + unfold a_rq. apply op_sync_k. cbn [rs_queue rs_reader]. destruct (lawful_bulk_dequeue LQ buf HR) as (q' & n & E1 & _ & _ & _ & HR'). rewrite E1.
        cbn -[firstn skipn]. intros _ _. split; [exact Hs|]. exists (skipn n (x :: items)), kq, w. split; [exact HR'|lia].
  Qed.
End Readers.

(** ** Writers *)
Section Writers.
  Context {S Q T : Type} (W : a_writer S T) (OK : S -> Prop) (I : queue Q T) (c : nat) (RQ : Q -> list T -> nat -> list T -> Prop).
  Hypothesis G : gentle_writer W OK.
  Hypothesis LQ : lawful_queue I c RQ.

  Lemma write_all_hardy : forall buf s, OK s -> ok_polls OK (fun s' r => r = Ok tt -> OK s') (a_write_all W buf) s.
  Proof.
    intros buf. unfold a_write_all. generalize (length buf) as fuel. intros fuel. revert buf. induction fuel as [|fuel IH]; intros [|b buf] s Hs; cbn [a_write_all_loop];
      [exact (fun _ => Hs)|exact Logic.I|exact (fun _ => Hs)|].
    eapply op_k; [apply op_endures, (gw_write G (b :: buf)), Hs|auto|]. intros s' [n|e] Hn; [|apply op_ret; discriminate].
    destruct (Hn _ eq_refl) as [Hle Hok]. apply op_attempt_k. rewrite slice_from_ok by exact Hle. cbn [safely].
    destruct (Nat.eqb_spec n 0) as [->|Hz]; [apply op_ret; discriminate|]. auto.
  Qed.

  Definition wr_inv (st : writer_state S Q) (k w : nat) : Prop :=
    OK (ws_writer st) /\ exists items kq ww, RQ (ws_queue st) items kq ww /\ k <= kq /\ w <= length ww.

  Lemma flush_internal_hardy : forall fuel s q items k w, OK s -> RQ q items k w ->
    ok_polls (fun st => wr_inv st 0 0) (fun st r => r = Ok tt -> OK (ws_writer st) /\ RQ (ws_queue st) [] k w) (a_flush_internal_buffer W I fuel) (mk_writer_state s q).
  Proof.
    induction fuel as [|fuel IH]; intros s q items k w Hs HR; cbn [a_flush_internal_buffer]; [apply op_out_of_fuel|].
    unfold a_wq at 1. apply op_sync_k. cbn [ws_queue ws_writer]. destruct items as [|x items].
    - rewrite (lq_expose_items_empty LQ HR). cbn. auto.
    - destruct (lq_expose_items LQ HR) as (q' & ys & rest & E1 & Hy & Hi & HR'); [discriminate|]. rewrite E1. cbn [bind safely fst snd].
      unfold a_ws. eapply op_within_k; [intros; reflexivity|intros; reflexivity|exact (write_all_hardy ys Hs)|..]; cbn [ws_queue].
      + intros i Hok. split; [exact Hok|]. exists (x :: items), k, w. split; [exact HR'|lia].
      + intros i [[]|e] Hok; [|apply op_ret; discriminate]. unfold a_wq at 1. apply op_sync_k. cbn [ws_queue ws_writer].
        destruct (lq_consider_dequeued LQ (length ys) HR') as (q2 & E2 & HR2); [rewrite Hi, app_length; lia|]. rewrite E2. cbn [bind safely fst snd].
        eapply IH; [auto|exact HR2].
  Qed.

  Lemma flushed_hardy : forall fuel X (f : fut (writer_state S Q) (res X io_error)) (D : writer_state S Q -> Prop) (Post : writer_state S Q -> res X io_error -> Prop) st k w, wr_inv st k w ->
    (forall st, wr_inv st 0 0 -> D st) -> (forall st e, Post st (Err e)) ->
    (forall s q kq ww, OK s -> RQ q [] kq ww -> k <= kq -> w <= length ww -> ok_polls D Post f (mk_writer_state s q)) ->
    ok_polls D Post (a_flushed W I fuel f) st.
  Proof.
    intros fuel X f D Post [s q] k w (Hs & items & kq & ww & HR & Hk & Hw) HD HE H. unfold a_flushed. cbn [ws_writer ws_queue] in *.
    eapply op_k; [exact (flush_internal_hardy fuel Hs HR)|exact HD|]. intros [s' q'] [[]|e] Hx; [|apply op_ret, HE].
    destruct (Hx eq_refl) as [Hok HR']. cbn [ws_writer ws_queue] in *. eapply H; eauto.
  Qed.

  Lemma writer_hardy : forall fuel, 1 <= c -> forall s q items k w, OK s -> RQ q items k w ->
    hardy_c (a_writer_consumer W I fuel) (mk_writer_state s q) k (length w).
  Proof.
    intros fuel Hc s q items k w Hs HR.
    apply hardy_consumer_all with (Inv := wr_inv); [..|split; cbn; eauto 8]; clear s q items k w Hs HR;
      cbn [a_writer_consumer ac_consume ac_close ac_flush ac_expose ac_write ac_consume_slots ac_bulk_consume ac_consumer ac_buffered].
    - intros st k w (Hs & items & kq & ww & HR & Hk). split; [exact Hs|]. exists items, kq, ww. split; [exact HR|lia].
    - intros x st k w H. unfold a_wr_consume. eapply flushed_hardy; [exact H|auto|discriminate|]. intros s q kq ww Hs HR Hk Hw. unfold a_ws.
      eapply op_within; [intros; reflexivity|intros; reflexivity|exact (write_all_hardy [x] Hs)|..]; cbn.
      + intros i Hi. split; [exact Hi|]. exists [], kq, ww. split; [exact HR|lia].
      + intros i r Hi Er. split; [auto|]. exists [], kq, ww. split; [exact HR|lia].
    - intros f st k w H. unfold a_wr_close. eapply flushed_hardy; [exact H|auto|auto|]. intros s q kq ww Hs HR Hk Hw. unfold a_ws.
      eapply op_within; [intros; reflexivity|intros; reflexivity|apply op_endures, (gw_close G), Hs|..]; auto.
    - intros st k w H. unfold a_wr_flush. eapply flushed_hardy; [exact H|auto|discriminate|]. intros s q kq ww Hs HR Hk Hw. unfold a_ws.
      eapply op_within; [intros; reflexivity|intros; reflexivity|apply op_endures, (gw_flush G), Hs|..]; cbn.
      + intros i Hi. split; [exact Hi|]. exists [], kq, ww. split; [exact HR|lia].
      + intros i r Hi Er. split; [auto|]. exists [], kq, ww. auto.
    - intros st k w H. unfold a_wr_expose_slots. eapply flushed_hardy; [exact H|auto|discriminate|]. intros s q kq ww Hs HR Hk Hw. unfold a_wq.
      apply op_sync_k. cbn [ws_queue ws_writer]. destruct (lq_expose_slots LQ HR) as (q' & n & E1 & Hn & Hn' & HR'); [cbn; lia|]. rewrite E1. cbn.
      intros m [= <-]. split; [exact Hs|]. exists [], n, []. auto.
    - intros ys [s q] k w (Hs & items & kq & ww & HR & Hk & Hw) Hy. cbn [ws_writer ws_queue] in *. split; [exact Hs|]. unfold wr_write. cbn [ws_queue ws_writer].
      exists items, kq, (overlay ys ww). split; [apply (lq_write LQ); [exact HR|lia]|]. rewrite length_overlay_max. lia.
    - intros n [s q] k w (Hs & items & kq & ww & HR & Hk & Hw) Hn. cbn [ws_writer ws_queue] in *. unfold a_wr_consume_slots, a_wq. apply op_sync_k. cbn [ws_queue ws_writer].
      destruct (lq_consider_enqueued LQ n HR) as (q' & E1 & HR'); [lia|]. rewrite E1. cbn. intros _. split; [exact Hs|].
      exists (items ++ firstn n ww), (kq - n), (skipn n ww). split; [exact HR'|]. rewrite skipn_length. lia.
    - intros buf st k w H. unfold a_wr_bulk_consume. eapply flushed_hardy; [exact H|auto|discriminate|]. intros s q kq ww Hs HR Hk Hw. unfold a_ws.
      eapply op_within_k; [intros; reflexivity|intros; reflexivity|apply op_endures, (gw_write G buf), Hs|..]; cbn [ws_queue].
      + intros i Hi. split; [exact Hi|]. exists [], kq, ww. split; [exact HR|lia].
      + intros i [n|e] Hn; [|apply op_ret; discriminate]. destruct (Hn _ eq_refl) as [Hle Hok]. destruct (Nat.eqb_spec n 0) as [->|Hz]; [apply op_ret; discriminate|].
        apply op_ret. intros m _. split; [exact (Hok Hz)|]. exists [], kq, ww. split; [exact HR|lia].
  Qed.
End Writers.

(** ** Readers and writers that never wait *)
Section Lift.
  Context {S T : Type}.

  Definition lift_reader (Rd : reader S T) : a_reader S T := mk_a_reader (fun buf => sync (r_read Rd buf)).
  Definition lift_buf_reader (Rd : buf_reader S T) : a_buf_reader S T := mk_a_buf_reader (lift_reader Rd) (sync (r_fill_buf Rd)) (r_consume Rd).
  Definition lift_writer (W : writer S T) : a_writer S T := mk_a_writer (fun buf => sync (w_write W buf)) (sync (w_flush W)) (sync (w_close W)).

  Lemma sync_endures : forall X (D : S -> Prop) (Q : S -> X -> Prop) g s, D s -> safely (fun x => Q (fst x) (snd x)) (g s) -> endures D Q (sync g) s.
  Proof. intros X D Q g s H1 H2. apply op_endures. split; [exact H1|]. now apply op_sync. Qed.

  Lemma lift_reader_gentle : forall (Rd : reader S T) OK, calm_reader Rd OK -> gentle_reader (lift_reader Rd) OK.
  Proof. intros Rd OK H buf s Hs. apply sync_endures; [exact Hs|exact (H _ _ Hs)]. Qed.
  Lemma lift_buf_reader_gentle : forall (Rd : buf_reader S T) OK, calm_buf_reader Rd OK -> gentle_buf_reader (lift_buf_reader Rd) OK.
  Proof.
    intros Rd OK H. constructor.
    - intros buf s k Hs. apply sync_endures; [exact (cb_forget H _ _ Hs)|exact (cb_read H _ _ _ Hs)].
    - intros s k Hs. apply sync_endures; [exact (cb_forget H _ _ Hs)|exact (cb_fill H _ _ Hs)].
    - exact (cb_consume H).
  Qed.
  Lemma lift_writer_gentle : forall (W : writer S T) OK, calm_writer W OK -> gentle_writer (lift_writer W) OK.
  Proof.
    intros W OK H. constructor; intros.
    - apply sync_endures; [assumption|now apply (cw_write H)].
    - apply sync_endures; [assumption|now apply (cw_flush H)].
    - apply sync_endures; [exact Logic.I|now apply (cw_close H)].
  Qed.

  (** Readers that read alike make alike adaptors. *)
  Section Ext.
    Variables Rd Rd' : reader S T.
    Hypothesis ext : forall buf s, r_read Rd buf s = r_read Rd' buf s.

    Lemma read_exact_ext : forall fuel done buf s, read_exact_loop Rd fuel done buf s = read_exact_loop Rd' fuel done buf s.
    Proof.
      induction fuel as [|fuel IH]; intros done [|b buf] s; try reflexivity. cbn [read_exact_loop]. rewrite ext.
      destruct (r_read Rd' (b :: buf) s) as [[s' [buf' [n|e]]]| |]; cbn [bind]; try reflexivity. destruct (slice_from n buf'); cbn [bind]; try reflexivity.
      destruct (n =? 0); [reflexivity|apply IH].
    Qed.
    Lemma read_one_ext : forall x0 s, read_one Rd x0 s = read_one Rd' x0 s.
    Proof. intros x0 s. unfold read_one, read_exact. now rewrite read_exact_ext. Qed.
    Lemma read_some_ext : forall buf s, read_some Rd buf s = read_some Rd' buf s.
    Proof. intros buf s. unfold read_some. now rewrite ext. Qed.

    Lemma reader_producer_ext : forall Q (I : queue Q T) x0 o s, p_do (reader_producer Rd I x0) o s = p_do (reader_producer Rd' I x0) o s.
    Proof.
      intros Q I x0 o s. destruct o as [| | |n|buf]; try reflexivity; cbn -[rd_produce rd_expose_items rd_bulk_produce].
      - unfold rd_produce. destruct (q_dequeue I (rs_queue s)) as [[q [x|]]| |]; cbn [bind]; try reflexivity. now rewrite read_one_ext.
      - unfold rd_expose_items. destruct (q_is_empty I (rs_queue s)); [|reflexivity].
        destruct (q_expose_slots I (rs_queue s)) as [[q [n|]]| |]; cbn [bind expect]; try reflexivity. now rewrite ext.
      - unfold rd_bulk_produce. destruct (q_is_empty I (rs_queue s)); [|reflexivity]. now rewrite read_some_ext.
    Qed.
  End Ext.

  Lemma buf_reader_producer_ext : forall (Rd Rd' : buf_reader S T), (forall buf s, r_read Rd buf s = r_read Rd' buf s) ->
    (forall s, r_fill_buf Rd s = r_fill_buf Rd' s) -> (forall n s, r_consume Rd n s = r_consume Rd' n s) ->
    forall x0 o s, p_do (buf_reader_producer Rd x0) o s = p_do (buf_reader_producer Rd' x0) o s.
  Proof.
    intros Rd Rd' H1 H2 H3 x0 o s. destruct o as [| | |n|buf]; cbn -[read_one br_slurp br_expose_items br_consider_produced read_some].
    - now rewrite (read_one_ext Rd Rd' H1).
    - unfold br_slurp. now rewrite H2.
    - unfold br_expose_items. rewrite H2. destruct (r_fill_buf Rd' s) as [[s' [[|y ys]|e]]| |]; cbn [bind]; try reflexivity. now rewrite H2.
    - unfold br_consider_produced. now rewrite H3.
    - now rewrite (read_some_ext Rd Rd' H1).
  Qed.

  Section WExt.
    Variables W W' : writer S T.
    Hypothesis ext : forall buf s, w_write W buf s = w_write W' buf s.
    Hypothesis ext_flush : forall s, w_flush W s = w_flush W' s.
    Hypothesis ext_close : forall s, w_close W s = w_close W' s.

    Lemma write_all_ext : forall buf s, write_all W buf s = write_all W' buf s.
    Proof.
      intros buf. unfold write_all. generalize (length buf) as fuel. intros fuel. revert buf. induction fuel as [|fuel IH]; intros [|b buf] s; try reflexivity.
      cbn [write_all_loop]. rewrite ext. destruct (w_write W' (b :: buf) s) as [[s' [n|e]]| |]; cbn [bind]; try reflexivity.
      destruct (slice_from n (b :: buf)); cbn [bind]; try reflexivity. destruct (n =? 0); [reflexivity|apply IH].
    Qed.
    Context {Q : Type} (I : queue Q T).
    Lemma flush_internal_ext : forall fuel st, flush_internal_buffer W I fuel st = flush_internal_buffer W' I fuel st.
    Proof.
      induction fuel as [|fuel IH]; intros st; [reflexivity|]. cbn [flush_internal_buffer].
      destruct (q_expose_items I (ws_queue st)) as [[q [ys|]]| |]; cbn [bind]; try reflexivity. rewrite write_all_ext.
      destruct (write_all W' ys (ws_writer st)) as [[s' [[]|e]]| |]; cbn [bind]; try reflexivity.
      destruct (q_consider_dequeued I (length ys) q); cbn [bind]; try reflexivity. apply IH.
    Qed.
    Lemma flushed_ext : forall fuel X (k k' : writer_state S Q -> outcome (writer_state S Q * res X io_error)) st, (forall st, k st = k' st) ->
      flushed W I fuel st k = flushed W' I fuel st k'.
    Proof.
      intros fuel X k k' st Hk. unfold flushed. rewrite flush_internal_ext. destruct (flush_internal_buffer W' I fuel st) as [[st' [[]|e]]| |]; cbn [bind]; auto.
    Qed.
    Lemma writer_consumer_ext : forall fuel o s, c_do (writer_consumer W I fuel) o s = c_do (writer_consumer W' I fuel) o s.
    Proof.
      intros fuel o s. destruct o as [x|f| | |ys|n|buf]; try reflexivity; cbn -[wr_consume wr_close wr_flush wr_expose_slots wr_bulk_consume].
      - unfold wr_consume. erewrite flushed_ext; [reflexivity|]. intros st. cbn beta. now rewrite write_all_ext.
      - unfold wr_close. erewrite flushed_ext; [reflexivity|]. intros st. cbn beta. now rewrite ext_close.
      - unfold wr_flush. erewrite flushed_ext; [reflexivity|]. intros st. cbn beta. now rewrite ext_flush.
      - unfold wr_expose_slots. erewrite flushed_ext; [reflexivity|]. reflexivity.
      - unfold wr_bulk_consume. erewrite flushed_ext; [reflexivity|]. intros st. cbn beta. now rewrite ext.
    Qed.
  End WExt.

  Lemma p_do_same : forall X F E (P P' : bulk_producer X T F E), same_bulk_producer P P' -> forall o s, p_do P o s = p_do P' o s.
  Proof. intros X F E P P' [[H1 H2] [H3 [H4 H5]]] [| | |n|buf] s; cbn; now rewrite ?H1, ?H2, ?H3, ?H4, ?H5. Qed.
  Lemma c_do_same : forall X F E (C C' : bulk_consumer X T F E), same_bulk_consumer C C' -> forall o s, c_do C o s = c_do C' o s.
  Proof. intros X F E C C' [[[H1 H2] H3] [H4 [H5 [H6 H7]]]] [x|f| | |ys|n|buf] s; cbn; now rewrite ?H1, ?H2, ?H3, ?H4, ?H5, ?H6, ?H7. Qed.

  Lemma buf_reader_calm : forall (Rd : buf_reader S T) OK x0, calm_buf_reader Rd OK -> forall s k, OK s k -> calm_producer true (buf_reader_producer Rd x0) s.
  Proof.
    intros Rd OK x0 H s k Hs. unfold calm_producer.
    eapply hardy_calm with (future := ap_future (a_buf_reader_producer (lift_buf_reader Rd) x0)) (gave_up := p_gave_up);
      [|eapply buf_reader_hardy; [apply lift_buf_reader_gentle, H|exact (cb_forget H _ _ Hs)]].
    intros o st. rewrite ap_future_run, (p_do_same (same_buf_reader _ _)). apply buf_reader_producer_ext; intros; cbn -[sync]; now rewrite ?run_sync.
  Qed.
  Lemma reader_calm : forall (Rd : reader S T) OK x0 Q (I : queue Q T) c RQ, calm_reader Rd OK -> lawful_queue I c RQ -> 1 <= c ->
    forall s q items k w, OK s -> RQ q items k w -> calm_producer true (reader_producer Rd I x0) (mk_reader_state s q).
  Proof.
    intros Rd OK x0 Q I c RQ H LQ Hc s q items k w Hs HR. unfold calm_producer.
    eapply hardy_calm with (future := ap_future (a_reader_producer (lift_reader Rd) I x0)) (gave_up := p_gave_up);
      [|eapply hardy_p_forget, reader_hardy; [exact LQ|apply lift_reader_gentle, H|exact Hc|exact Hs|exact HR]].
    intros o st. rewrite ap_future_run, (p_do_same (same_reader I _ _)). apply reader_producer_ext; intros; cbn -[sync]; now rewrite ?run_sync.
  Qed.
  Lemma writer_calm : forall (W : writer S T) OK fuel Q (I : queue Q T) c RQ, calm_writer W OK -> lawful_queue I c RQ -> 1 <= c ->
    forall s q items k w, OK s -> RQ q items k w -> calm_consumer (writer_consumer W I fuel) (mk_writer_state s q).
  Proof.
    intros W OK fuel Q I c RQ H LQ Hc s q items k w Hs HR. unfold calm_consumer.
    eapply hardy_calm with (future := ac_future (a_writer_consumer (lift_writer W) I fuel)) (gave_up := c_gave_up);
      [|eapply hardy_c_forget, writer_hardy; [apply lift_writer_gentle, H|exact LQ|exact Hc|exact Hs|exact HR]].
    intros o st. rewrite ac_future_run, (c_do_same (same_writer I _ _)). apply writer_consumer_ext; intros; cbn -[sync]; now rewrite ?run_sync.
  Qed.
End Lift.

(** ** Buffers keep their length, and amounts are true *)
Lemma reader_keeps_length : forall S T Q (Rd : reader S T) (I : queue Q T) x0,
  (forall buf s s' buf' r, r_read Rd buf s = Ret (s', (buf', r)) -> length buf' = length buf) -> keeps_length (reader_producer Rd I x0).
Proof.
  intros S T Q Rd I x0 H buf s s' buf' r. cbn [reader_producer p_bulk_produce]. unfold rd_bulk_produce, read_some, q_bulk_dequeue.
  destruct (q_is_empty I (rs_queue s)).
  - destruct (r_read Rd buf (rs_reader s)) as [[s1 [b1 [n|e]]]| |] eqn:E1; cbn [bind]; try discriminate; [destruct (n =? 0)|]; cbn [bind]; intros [= _ <- _]; eauto.
  - destruct (q_expose_items I (rs_queue s)) as [[q [ys|]]| |]; cbn [bind]; try discriminate; [|intros [= _ <- _]; reflexivity].
    destruct (q_consider_dequeued I _ q); cbn [bind]; try discriminate. intros [= _ <- _]. rewrite app_length, firstn_length, skipn_length. lia.
Qed.
Lemma buf_reader_keeps_length : forall S T (Rd : buf_reader S T) x0,
  (forall buf s s' buf' r, r_read Rd buf s = Ret (s', (buf', r)) -> length buf' = length buf) -> keeps_length (buf_reader_producer Rd x0).
Proof.
  intros S T Rd x0 H buf s s' buf' r. cbn [buf_reader_producer p_bulk_produce]. unfold read_some.
  destruct (r_read Rd buf s) as [[s1 [b1 [n|e]]]| |] eqn:E1; cbn [bind]; try discriminate; [destruct (n =? 0)|]; intros [= _ <- _]; eauto.
Qed.
Lemma writer_honest_count : forall S T Q (W : writer S T) (I : queue Q T) fuel,
  (forall buf s s' n, w_write W buf s = Ret (s', Ok n) -> n <= length buf) -> honest_count (writer_consumer W I fuel).
Proof.
  intros S T Q W I fuel H buf s s' n. cbn [writer_consumer c_bulk_consume]. unfold wr_bulk_consume, flushed.
  destruct (flush_internal_buffer W I fuel s) as [[st [[]|e]]| |]; cbn [bind]; try discriminate.
  destruct (w_write W buf (ws_writer st)) as [[s1 [m|e]]| |] eqn:E1; cbn [bind]; try discriminate. destruct (m =? 0); try discriminate. intros [= _ <-]. eauto.
Qed.

(** ** Calls return *)
Definition returns {X} (Q : X -> Prop) (o : outcome X) : Prop := exists x, o = Ret x /\ Q x.

Lemma safely_returns : forall X (Q : X -> Prop) o, safely Q o -> o <> NoFuel -> returns Q o.
Proof. intros X Q [x| |] H N; [exists x; auto|destruct H|congruence]. Qed.
Lemma returns_bind : forall X Y (Q : X -> Prop) (Q' : Y -> Prop) o (k : X -> outcome Y), returns Q o -> (forall x, Q x -> returns Q' (k x)) -> returns Q' (bind o k).
Proof. intros X Y Q Q' o k (x & -> & H) Hk. exact (Hk _ H). Qed.

Section Returns.
  Context {S Q T : Type} (W : writer S T) (OK : S -> Prop) (I : queue Q T) (c : nat) (RQ : Q -> list T -> nat -> list T -> Prop).
  Hypothesis G : calm_writer W OK.
  Hypothesis LQ : lawful_queue I c RQ.
  Hypothesis Nw : forall buf s, OK s -> w_write W buf s <> NoFuel.
  Hypothesis Nf : forall s, OK s -> w_flush W s <> NoFuel.
  Hypothesis Nc : forall s, OK s -> w_close W s <> NoFuel.

  Lemma write_all_loop_returns : forall fuel buf s, OK s -> length buf <= fuel -> returns (fun x => snd x = Ok tt -> OK (fst x)) (write_all_loop W fuel buf s).
  Proof.
    induction fuel as [|fuel IH]; intros [|b buf] s Hs Hf; cbn [length] in Hf; try lia; cbn [write_all_loop]; try (eexists; split; [reflexivity|auto]; fail).
    eapply returns_bind; [apply safely_returns; [exact (cw_write G (b :: buf) _ Hs)|auto]|].
    intros [s' [n|e]] Hn; [|eexists; split; [reflexivity|discriminate]]. destruct (Hn _ eq_refl) as [Hle Hok]. cbn [fst] in Hok.
    rewrite slice_from_ok by exact Hle. cbn [bind]. destruct (Nat.eqb_spec n 0) as [->|Hz]; [eexists; split; [reflexivity|discriminate]|].
    apply IH; [auto|]. rewrite skipn_length. cbn [length]. lia.
  Qed.
  Lemma write_all_returns : forall buf s, OK s -> returns (fun x => snd x = Ok tt -> OK (fst x)) (write_all W buf s).
  Proof. intros buf s Hs. apply write_all_loop_returns; [exact Hs|lia]. Qed.

  Lemma flush_internal_returns : forall fuel s q items k w, OK s -> RQ q items k w -> length items < fuel ->
    returns (fun x => snd x = Ok tt -> OK (ws_writer (fst x)) /\ RQ (ws_queue (fst x)) [] k w) (flush_internal_buffer W I fuel (mk_writer_state s q)).
  Proof.
    induction fuel as [|fuel IH]; intros s q items k w Hs HR Hf; [lia|]. cbn [flush_internal_buffer ws_queue ws_writer]. destruct items as [|x items].
    - rewrite (lq_expose_items_empty LQ HR). eexists. split; [reflexivity|]. cbn. auto.
    - destruct (lq_expose_items LQ HR) as (q' & ys & rest & E1 & Hy & Hi & HR'); [discriminate|]. rewrite E1. cbn [bind].
      eapply returns_bind; [exact (write_all_returns ys Hs)|]. intros [s' [[]|e]] Hok; [|eexists; split; [reflexivity|discriminate]].
      destruct (lq_consider_dequeued LQ (length ys) HR') as (q2 & E2 & HR2); [rewrite Hi, app_length; lia|]. rewrite E2. cbn [bind].
      eapply IH; [exact (Hok eq_refl)|exact HR2|]. rewrite skipn_length. cbn [length] in *. destruct ys; [congruence|cbn [length]; lia].
  Qed.

  Lemma flushed_returns : forall fuel s q items k w X (f : writer_state S Q -> outcome (writer_state S Q * res X io_error)), OK s -> RQ q items k w -> length items < fuel ->
    (forall s q, OK s -> RQ q [] k w -> returns (fun _ => True) (f (mk_writer_state s q))) -> returns (fun _ => True) (flushed W I fuel (mk_writer_state s q) f).
  Proof.
    intros fuel s q items k w X f Hs HR Hf H. unfold flushed. eapply returns_bind; [exact (flush_internal_returns Hs HR Hf)|].
    intros [[s' q'] [[]|e]] Hx; [|eexists; split; [reflexivity|exact Logic.I]]. destruct (Hx eq_refl) as [Hok HR']. auto.
  Qed.

  Lemma writer_returns : forall fuel, 1 <= c -> c < fuel -> forall s q items k w o, OK s -> RQ q items k w -> c_calls (mk_cmon false k (length w)) o = true ->
    returns (fun _ => True) (c_do (writer_consumer W I fuel) o (mk_writer_state s q)).
  Proof.
    intros fuel Hc Hfc s q items k w o Hs HR Ho. destruct (lq_wf LQ HR) as [Hl _]. assert (Hf : length items < fuel) by lia.
    destruct o as [x|f| | |ys|n|buf]; cbn -[wr_consume wr_close wr_flush wr_expose_slots wr_consume_slots wr_bulk_consume wr_write c_calls] in Ho |- *.
    - eapply returns_bind with (Q := fun _ => True); [|intros [st r] _; eexists; eauto]. eapply flushed_returns; [exact Hs|exact HR|exact Hf|]. clear s q items Hs HR Hl Hf.
      intros s q Hs HR. eapply returns_bind; [exact (write_all_returns [x] Hs)|]. intros [s' r] _. eexists; eauto.
    - eapply returns_bind with (Q := fun _ => True); [|intros [st r] _; eexists; eauto]. eapply flushed_returns; [exact Hs|exact HR|exact Hf|]. clear s q items Hs HR Hl Hf.
      intros s q Hs HR. eapply returns_bind; [apply safely_returns; [exact (cw_close G _ Hs)|auto]|]. intros [s' r] _. eexists; eauto.
    - eapply returns_bind with (Q := fun _ => True); [|intros [st r] _; eexists; eauto]. eapply flushed_returns; [exact Hs|exact HR|exact Hf|]. clear s q items Hs HR Hl Hf.
      intros s q Hs HR. eapply returns_bind; [apply safely_returns; [exact (cw_flush G _ Hs)|auto]|]. intros [s' r] _. eexists; eauto.
    - eapply returns_bind with (Q := fun _ => True); [|intros [st r] _; eexists; eauto]. eapply flushed_returns; [exact Hs|exact HR|exact Hf|]. clear s q items Hs HR Hl Hf.
      intros s q Hs HR. cbn [ws_queue]. destruct (lq_expose_slots LQ HR) as (q' & n & E1 & _); [cbn; lia|]. rewrite E1. eexists; split; [reflexivity|exact Logic.I].
    - eexists; eauto.
    - unfold c_calls, c_may in Ho. cbn [cm_over cm_written negb andb] in Ho. rewrite andb_true_r in Ho. apply Nat.leb_le in Ho.
      unfold wr_consume_slots. cbn [ws_queue]. destruct (lq_consider_enqueued LQ n HR Ho) as (q' & E1 & _). rewrite E1. eexists; split; [reflexivity|exact Logic.I].
    - eapply returns_bind with (Q := fun _ => True); [|intros [st r] _; eexists; eauto]. eapply flushed_returns; [exact Hs|exact HR|exact Hf|]. clear s q items Hs HR Hl Hf.
      intros s q Hs HR. eapply returns_bind; [apply safely_returns; [exact (cw_write G buf _ Hs)|auto]|]. intros [s' [n|e]] _; [destruct (n =? 0)|]; eexists; eauto.
  Qed.
End Returns.
